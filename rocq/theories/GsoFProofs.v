(** The caches of the GSO object always agree with the reference values. *)
From Coq Require Import List ZArith Lia Arith Bool.
From Verif Require Import Util LatticeSpec NumVectModel NumVectProofs MatrixModel MatrixProofs
  GsoModel GsoProofs GsoHistory RotateSpec GsoFModel GsoFSpec.
Import ListNotations.
Local Open Scope nat_scope.

(** ** max_expo *)
Lemma fold_max_ge l : forall e x, (In x (e :: l) -> x <= fold_left Z.max l e)%Z.
Proof.
  induction l as [|a l IH]; simpl; intros e x H.
  - destruct H as [->|[]]. lia.
  - destruct H as [->|[->|H]].
    + transitivity (Z.max x a); [lia|]. apply IH. left; auto.
    + transitivity (Z.max e x); [lia|]. apply IH. left; auto.
    + apply IH. right; auto.
Qed.
Lemma fold_max_in l : forall e, In (fold_left Z.max l e) (e :: l).
Proof.
  induction l as [|a l IH]; simpl; intros e; auto. destruct (IH (Z.max e a)) as [H|H]; auto.
  rewrite <- H. destruct (Z.max_spec e a) as [[_ ->]|[_ ->]]; auto.
Qed.
Lemma max_expo_ge l x : In x l -> (x <= max_expo l)%Z.
Proof. destruct l; [intros []|]. apply fold_max_ge. Qed.
Lemma max_expo_in l : l <> [] -> In (max_expo l) l.
Proof. destruct l; [congruence|]. intros _. apply fold_max_in. Qed.
Lemma max_expo_sub l l' : l <> [] -> incl l l' -> (forall x, In x l' -> exists y, In y l /\ (x <= y)%Z) ->
  max_expo l = max_expo l'.
Proof.
  intros Hn Hi Hb. apply Z.le_antisymm.
  - apply max_expo_ge, Hi, max_expo_in; auto.
  - assert (Hn' : l' <> []) by (destruct l as [|a l0]; [congruence|]; specialize (Hi a (or_introl eq_refl)); destruct l'; [destruct Hi|congruence]).
    destruct (Hb _ (max_expo_in l' Hn')) as [y [Hy Hle]].
    etransitivity; [exact Hle|]. apply max_expo_ge; auto.
Qed.

Section P.
Variable fo : fops.
Variable en_e : bool.
Hypothesis L : flaws fo en_e.
Notation FT := (F fo).
Notation f0 := (f_ofZ fo 0).
Notation encrow := (encrow fo en_e).
Notation encexp := (encexp fo en_e).

Lemma encrow_length row : length (encrow row) = length row.
Proof. unfold GsoFSpec.encrow. destruct en_e; apply map_length. Qed.

Lemma encrow_zero row k : nth k row 0%Z = 0%Z -> nth k (encrow row) f0 = f0.
Proof.
  intros H. destruct (Nat.lt_ge_cases k (length row)).
  - unfold GsoFSpec.encrow. destruct en_e eqn:E.
    + rewrite map_nth_lt with (d := 0%Z) by auto. rewrite H. rewrite (l_exp0 _ _ L eq_refl). apply (l_mul20 _ _ L eq_refl).
    + rewrite map_nth_lt with (d := 0%Z) by auto. now rewrite H.
  - apply nth_overflow. now rewrite encrow_length.
Qed.

(** truncated conversion *)
Lemma encexp_trunc row n : 1 <= n <= length row -> (forall k, n <= k -> nth k row 0%Z = 0%Z) ->
  encexp (firstn n row) = encexp row.
Proof.
  intros Hn Hz. unfold GsoFSpec.encexp. destruct en_e eqn:E; auto.
  apply max_expo_sub.
  - destruct row; simpl in Hn; [lia|]. destruct n; [lia|]. discriminate.
  - intros x Hx. apply in_map_iff in Hx. destruct Hx as [y [<- Hy]]. apply in_map_iff. exists y. split; auto.
    rewrite <- (firstn_skipn n row). apply in_or_app; auto.
  - intros x Hx. apply in_map_iff in Hx. destruct Hx as [y [<- Hy]].
    rewrite <- (firstn_skipn n row) in Hy. apply in_app_or in Hy. destruct Hy as [Hy|Hy].
    + exists (snd (f_exp fo y)). split; [|lia]. apply in_map_iff. eauto.
    + assert (y = 0%Z).
      { apply In_nth with (d := 0%Z) in Hy. destruct Hy as [k [Hk <-]]. rewrite nth_skipn_add. apply Hz. lia. }
      subst y. destruct row as [|a row]; simpl in Hn; [lia|]. destruct n; [lia|]. simpl.
      exists (snd (f_exp fo a)). split; auto. apply (l_expmin _ _ L eq_refl).
Qed.

Lemma encrow_trunc row n old : 1 <= n <= length row -> length old = length row ->
  (forall k, n <= k -> nth k row 0%Z = 0%Z) -> (forall k, n <= k -> nth k old f0 = f0) ->
  encrow (firstn n row) ++ skipn n old = encrow row.
Proof.
  intros Hn Hl Hz Ho. apply list_ext with (d := f0).
  - rewrite app_length, !encrow_length, firstn_length, skipn_length. lia.
  - intros k Hk. destruct (Nat.lt_ge_cases k n) as [Hkn|Hkn].
    + rewrite app_nth1 by (rewrite encrow_length, firstn_length; lia).
      assert (nth k (firstn n row) 0%Z = nth k row 0%Z) as X.
      { rewrite <- (firstn_skipn n row) at 2. rewrite app_nth1; auto. rewrite firstn_length. lia. }
      pose proof (encexp_trunc row n Hn Hz) as XE.
      unfold GsoFSpec.encrow. destruct en_e.
      * rewrite !map_nth_lt with (d := 0%Z) by (rewrite ?firstn_length; lia). rewrite X, XE. auto.
      * rewrite !map_nth_lt with (d := 0%Z) by (rewrite ?firstn_length; lia). rewrite X. auto.
    + rewrite app_nth2 by (rewrite encrow_length, firstn_length; lia).
      rewrite encrow_length, firstn_length, nth_skipn_add. rewrite Ho by lia. symmetry. apply encrow_zero. apply Hz. auto.
Qed.

(** ** update_bf *)
Definition bf_row_ok (z : gz) (s : fst_ fo) (i : nat) : Prop :=
  nth i (fbf s) [] = encrow (nth i (gb z) []) /\ (en_e = true -> nth i (fre s) 0%Z = encexp (nth i (gb z) [])).

Definition same_but_bf (s s' : fst_ fo) : Prop :=
  fmu s' = fmu s /\ fr s' = fr s /\ fgf s' = fgf s /\ fvc s' = fvc s.

Lemma update_bf_ok z s i :
  Inv z -> i < gd z -> dims (gd z) (gc z) (fbf s) -> length (fre s) = gd z ->
  (forall k, Nat.max (nkc z) (nth i (irs z) 0) <= k -> nth k (nth i (fbf s) []) f0 = f0) ->
  exists s', update_bf fo en_e z s i = Some s' /\ same_but_bf s s' /\
    dims (gd z) (gc z) (fbf s') /\ length (fre s') = gd z /\ bf_row_ok z s' i /\
    (forall a, a <> i -> nth a (fbf s') [] = nth a (fbf s) [] /\ nth a (fre s') 0%Z = nth a (fre s) 0%Z).
Proof.
  intros HI Hi HD HL HT. unfold update_bf.
  destruct (I_irs _ HI) as [LI HIR]. destruct (I_b _ HI) as [LB RB]. destruct HD as [LD RD].
  rewrite (nth_error_nth' (irs z) 0) by lia. cbn [obind].
  rewrite (nth_error_nth' (gb z) []) by lia. cbn [obind].
  rewrite (nth_error_nth' (fbf s) []) by lia. cbn [obind].
  set (n := Nat.max (nkc z) (nth i (irs z) 0)) in *.
  specialize (HIR i Hi). destruct (I_known _ HI) as [_ [_ Hkc]].
  rewrite RB, RD by auto.
  destruct (Nat.ltb_spec (gc z) n); [lia|]. cbn [orb].
  assert (HN : encrow (firstn n (nth i (gb z) [])) ++ skipn n (nth i (fbf s) []) = encrow (nth i (gb z) [])).
  { apply encrow_trunc; auto.
    - rewrite RB by auto. lia.
    - rewrite RD, RB; auto.
    - intros k Hk. apply (I_tail _ HI i k); auto. }
  assert (HE : encexp (firstn n (nth i (gb z) [])) = encexp (nth i (gb z) [])).
  { apply encexp_trunc.
    - rewrite RB by auto. lia.
    - intros k Hk. apply (I_tail _ HI i k); auto. }
  revert HN HE. unfold bf_row_ok, GsoFSpec.encrow, GsoFSpec.encexp. destruct en_e eqn:EE; intros HN HE.
  - rewrite (nth_error_nth' (fre s) 0%Z) by lia. cbn [obind].
    eexists. split; [reflexivity|]. cbn [fbf fre set_bf].
    assert (X : map (fun p => f_mul2 fo (fst p) (snd p - max_expo (map snd (map (f_exp fo) (firstn n (nth i (gb z) []))))))
          (map (f_exp fo) (firstn n (nth i (gb z) []))) ++ skipn n (nth i (fbf s) [])
          = map (fun x => f_mul2 fo (fst (f_exp fo x)) (snd (f_exp fo x) - max_expo (map (fun x => snd (f_exp fo x)) (nth i (gb z) [])))) (nth i (gb z) [])).
    { rewrite <- HN. f_equal. rewrite !map_map. reflexivity. }
    rewrite X. split; [repeat split|]. split; [|split; [|split]].
    + apply dims_upd; [split; auto|]. rewrite map_length. auto.
    + now rewrite upd_length.
    + rewrite !nth_upd_eq by lia. split; auto. intros _. rewrite map_map. exact HE.
    + intros a Ha. rewrite !nth_upd_neq by auto. auto.
  - eexists. split; [reflexivity|]. cbn [fbf fre set_bf].
    rewrite HN. split; [repeat split|]. split; [|split; [|split]]; auto.
    + apply dims_upd; [split; auto|]. rewrite map_length. auto.
    + rewrite !nth_upd_eq by lia. split; auto. discriminate.
    + intros a Ha. rewrite !nth_upd_neq by auto. auto.
Qed.

(** ** dot products *)
Lemma fdot_loop_spec v w cnt : forall i acc, i + cnt <= length v -> i + cnt <= length w ->
  fdot_loop fo acc v w i cnt = Some (fold_left (fun acc k => f_addmul fo acc (nth k v f0) (nth k w f0)) (seq i cnt) acc).
Proof.
  induction cnt; intros i acc Hv Hw; simpl; auto.
  rewrite (nth_error_nth' v f0) by lia. simpl. rewrite (nth_error_nth' w f0) by lia. simpl.
  apply IHcnt; lia.
Qed.

Lemma fold_absorb (h : FT -> nat -> FT) l : (forall acc k, In k l -> h acc k = acc) -> forall a, fold_left h l a = a.
Proof. induction l; simpl; auto. intros H a0. rewrite H by auto. apply IHl. intros; apply H; auto. Qed.

Lemma fdot_spec v w n c : 1 <= n <= c -> length v = c -> length w = c ->
  (forall k, n <= k -> nth k w f0 = f0) ->
  fdot fo v w n = Some (fdotall fo c v w).
Proof.
  intros Hn Hv Hw Hz. unfold fdot.
  rewrite (nth_error_nth' v f0) by lia. cbn [obind]. rewrite (nth_error_nth' w f0) by lia. cbn [obind].
  rewrite fdot_loop_spec by lia. f_equal. unfold fdotall.
  replace (c - 1) with ((n - 1) + (c - n)) by lia. rewrite seq_app, fold_left_app.
  symmetry. apply fold_absorb. intros acc k Hk. apply in_seq in Hk.
  rewrite (l_addmulc _ _ L), Hz by lia. apply (l_abs _ _ L).
Qed.

Lemma fdotall_comm c v w : fdotall fo c v w = fdotall fo c w v.
Proof.
  unfold fdotall. rewrite (l_mulc _ _ L).
  apply fold_left_ext. intros. apply (l_addmulc _ _ L).
Qed.

Notation Gr z := (gram_ref fo en_e (en_g z) (gc z) (gb z)).

Lemma Gr_sym ig c B i j : gram_ref fo en_e ig c B i j = gram_ref fo en_e ig c B j i.
Proof.
  unfold gram_ref. destruct ig.
  - now rewrite inner_comm.
  - apply fdotall_comm.
Qed.

(** ** Invariant *)
Notation ge := (gent f0).
Notation so := (sgent (@None FT)).

Record FDims (z : gz) (s : fst_ fo) : Prop := {
  D_mu : dims (gd z) (gd z) (fmu s);
  D_r : dims (gd z) (gd z) (fr s);
  D_gf : dims (gd z) (gd z) (fgf s);
  D_bf : dims (gd z) (gc z) (fbf s);
  D_re : length (fre s) = gd z;
  D_vc : length (fvc s) = gd z
}.

Definition bf_ok (z : gz) (s : fst_ fo) : Prop := en_g z = false -> forall i, i < gd z -> bf_row_ok z s i.

(** cached Gram values are correct *)
Definition gf_ok (z : gz) (s : fst_ fo) : Prop := en_g z = false ->
  forall i j v, i < nkr z -> j < nkr z -> so (fgf s) i j = Some v -> v = Gr z i j.

(** valid coefficients are correct *)
Definition co_ok (z : gz) (s : fst_ fo) : Prop :=
  forall i, i < nkr z -> nth i (fvc s) 0 <= S i /\
    forall j, j < nth i (fvc s) 0 ->
      ge (fr s) i j = refR fo (Gr z) i j /\ (j < i -> ge (fmu s) i j = refM fo (Gr z) i j).

Record FInv (z : gz) (s : fst_ fo) : Prop := {
  F_inv : Inv z;
  F_dims : FDims z s;
  F_bf : bf_ok z s;
  F_gf : gf_ok z s;
  F_co : co_ok z s
}.

Lemma dims_repeat {A} R C (x : A) : dims R C (repeat (repeat x C) R).
Proof.
  split; [apply repeat_length|]. intros i Hi.
  rewrite (nth_indep _ [] (repeat x C)) by (rewrite repeat_length; auto).
  rewrite nth_repeat. apply repeat_length.
Qed.

(** initial state *)
Lemma fst_new_ok junk z : Inv z -> nkr z = 0 -> nsr z = 0 -> exists s, fst_new fo en_e junk z = Some s /\ FInv z s.
Proof.
  intros HI Hk Hs. unfold fst_new.
  set (s0 := mkfst _ _ _ _ _ _).
  assert (D0 : FDims z s0).
  { constructor; simpl; try apply dims_repeat; apply repeat_length. }
  assert (HB : en_g z = false -> exists s, ofor (seq 0 (gd z)) (fun i s => update_bf fo en_e z s i) s0 = Some s /\
       FDims z s /\ forall i, i < gd z -> bf_row_ok z s i).
  { intros EG.
    destruct (ofor_inv (fun k s => FDims z s /\ (forall i, i < k -> bf_row_ok z s i) /\
        (forall i, k <= i -> forall c, nth c (nth i (fbf s) []) f0 = f0)) (fun i s => update_bf fo en_e z s i) (gd z) 0 s0)
      as [s [E [D [HB _]]]].
    - split; auto. split; [lia|]. intros i _ c. unfold s0. simpl.
      destruct (Nat.lt_ge_cases i (gd z)).
      + rewrite (nth_indep _ [] (repeat f0 (gc z))) by (rewrite repeat_length; auto).
        rewrite nth_repeat. apply nth_repeat.
      + rewrite (nth_overflow (repeat _ _)) by (rewrite repeat_length; auto). destruct c; auto.
    - intros k s Hk' [D [H1 H2]].
      destruct (update_bf_ok z s k) as [s' [E [S [B1 [B2 [B3 B4]]]]]]; auto; try apply D; try lia.
      exists s'. split; auto. destruct S as [S1 [S2 [S3 S4]]].
      split; [|split].
      + destruct D. constructor; rewrite ?S1, ?S2, ?S3, ?S4; auto.
      + intros i Hi. destruct (Nat.eq_dec i k) as [->|Hne]; auto.
        destruct (B4 i Hne) as [X1 X2]. destruct (H1 i) as [Y1 Y2]; [lia|]. split.
        * rewrite X1; auto.
        * intros Ee. rewrite X2; auto.
      + intros i Hi c. destruct (B4 i) as [X1 _]; [lia|]. rewrite X1. apply H2. lia.
    - exists s. auto. }
  assert (HC : forall s, FDims z s -> bf_ok z s -> FInv z s).
  { intros s D B. constructor; auto.
    - intros _ i j v Hi. lia.
    - intros i Hi. lia. }
  destruct (en_g z) eqn:EG.
  - exists s0. split; auto. apply HC; auto. intros X. congruence.
  - destruct (HB eq_refl) as [s [E [D B]]]. exists s. split; auto. apply HC; auto. intros _. auto.
Qed.

(** ** invalidations *)
Lemma invalidate_gram_row_ok R s i : dims R R (fgf s) -> i < R ->
  exists s', invalidate_gram_row fo s i = Some s' /\ dims R R (fgf s') /\
    fmu s' = fmu s /\ fr s' = fr s /\ fbf s' = fbf s /\ fre s' = fre s /\ fvc s' = fvc s /\
    forall a b, gent None (fgf s') a b = if (a =? i) && (b <=? i) then None else gent None (fgf s) a b.
Proof.
  intros HD Hi. unfold invalidate_gram_row.
  destruct (ofor_inv (fun k g => dims R R g /\ forall a b, gent None g a b = if (a =? i) && (b <? k) then None else gent None (fgf s) a b)
     (fun j g => mset g i j None) (S i) 0 (fgf s)) as [g' [E [D H]]].
  - split; auto. intros a b. rewrite andb_false_r. auto.
  - intros k g Hk [Dg Hg]. destruct (mset_some (@None FT) R R g i k None) as [g2 [E2 [D2 H2]]]; auto; try lia.
    exists g2. split; auto. split; auto. intros a b. rewrite H2, Hg. gs.
  - rewrite E. cbn [obind]. eexists. split; [reflexivity|]. simpl. repeat split; auto; try apply D.
Qed.

Lemma invalidate_gso_rows_ok f cnt : forall a s, a + cnt <= length (fvc s) ->
  exists s', ofor (seq a cnt) (fun i s => invalidate_gso_row fo s i f) s = Some s' /\
    fmu s' = fmu s /\ fr s' = fr s /\ fgf s' = fgf s /\ fbf s' = fbf s /\ fre s' = fre s /\
    length (fvc s') = length (fvc s) /\
    forall i, nth i (fvc s') 0 = if (a <=? i) && (i <? a + cnt) then Nat.min (nth i (fvc s) 0) f else nth i (fvc s) 0.
Proof.
  induction cnt; intros a s Hl; simpl.
  - exists s. repeat split; auto. intros i. gs.
  - unfold invalidate_gso_row at 1. rewrite (nth_error_nth' (fvc s) 0) by lia. simpl.
    destruct (IHcnt (S a) (set_vc fo s (upd (fvc s) a (Nat.min (nth a (fvc s) 0) f)))) as [s' [E [E1 [E2 [E3 [E4 [E5 [E6 H]]]]]]]].
    + simpl. rewrite upd_length. lia.
    + exists s'. split; auto. cbn [fmu fr fgf fbf fre fvc set_vc] in *. repeat split; auto.
      * rewrite E6, upd_length. auto.
      * intros i. rewrite H, nth_upd. gs.
Qed.

(** ** row operations inside a transaction *)
Lemma transform_known z i j x nx z' : transform_addmul z i j x nx = Some z' -> same_known z z' /\ flags_eq z z' /\ gb z' = gb z.
Proof.
  unfold transform_addmul. destruct (en_t z) eqn:ET.
  - destruct (mrow_addmul_full (gu z) i j x); simpl; [|discriminate]. destruct (en_i z) eqn:EI.
    + destruct (mrow_addmul_full (gui z) j i nx); simpl; [|discriminate]. intros E; injection E as <-. repeat split; auto.
    + intros E; injection E as <-. repeat split; auto.
  - intros E; injection E as <-. repeat split; auto.
Qed.

Ltac known_tac :=
  repeat match goal with
  | |- obind ?e _ = Some _ -> _ => let E := fresh "E" in destruct e eqn:E; cbn [obind]; [|discriminate]
  | |- (if ?b then _ else _) = Some _ -> _ => destruct b
  | |- None = Some _ -> _ => discriminate
  end;
  try (let E := fresh "E" in intros E; injection E as <-).

Lemma gstep_known f l z o z' : op_in_range f l o -> gstep z o = Some z' ->
  same_known z z'.
Proof.
  destruct o; simpl; try tauto; intros _.
  - unfold row_add. known_tac; match goal with H : transform_addmul _ _ _ _ _ = Some _ |- _ => apply transform_known in H; destruct H as [K _]; destruct K as [? [? [? [? ?]]]]; repeat split; auto end.
  - unfold row_sub. known_tac; match goal with H : transform_addmul _ _ _ _ _ = Some _ |- _ => apply transform_known in H; destruct H as [K _]; destruct K as [? [? [? [? ?]]]]; repeat split; auto end.
  - unfold row_addmul_si. known_tac; match goal with H : transform_addmul _ _ _ _ _ = Some _ |- _ => apply transform_known in H; destruct H as [K _]; destruct K as [? [? [? [? ?]]]]; repeat split; auto end.
  - unfold row_addmul_si_2exp. known_tac; match goal with H : transform_addmul _ _ _ _ _ = Some _ |- _ => apply transform_known in H; destruct H as [K _]; destruct K as [? [? [? [? ?]]]]; repeat split; auto end.
  - unfold row_addmul_2exp. known_tac; match goal with H : transform_addmul _ _ _ _ _ = Some _ |- _ => apply transform_known in H; destruct H as [K _]; destruct K as [? [? [? [? ?]]]]; repeat split; auto end.
  - unfold row_addmul_we, row_add, row_sub, row_addmul_si, row_addmul_si_2exp, row_addmul_2exp.
    known_tac; try (repeat split; auto; fail); match goal with H : transform_addmul _ _ _ _ _ = Some _ |- _ => apply transform_known in H; destruct H as [K _]; destruct K as [? [? [? [? ?]]]]; repeat split; auto end.
  - unfold row_swap. destruct (oswap (gb z) i j); cbn [obind]; [|discriminate].
    destruct (en_t z).
    + destruct (oswap (gu z) i j); cbn [obind]; [|discriminate]. known_tac; repeat split; auto.
    + cbn [obind]. known_tac; repeat split; auto.
  - unfold negate_row_of_b. known_tac; repeat split; auto.
Qed.

Lemma gstep_rows f l z o z' : Inv z -> legal z o -> op_in_range f l o -> gstep z o = Some z' ->
  Inv z' /\ flags_eq z z' /\ gd z' = gd z /\ forall a, a < gd z -> ~ (f <= a < l) -> nth a (gb z') [] = nth a (gb z) [].
Proof.
  intros HI HL HR E.
  assert (HX : exists e, Inv z' /\ flags_eq z z' /\ eff_mat e (gb z) (gb z') /\
      match e with EAdd i j x => f <= i < l | EPerm p q => (forall a, a < gd z -> ~ (f <= a < l) -> p a = a) | ENeg i => f <= i < l | ENone => True end).
  { destruct (is_negate_dec o) as [[i ->]|Hn].
    - destruct (negate_ok z i HI HL) as [z2 [E2 S]]. simpl in E. assert (z2 = z') by congruence. subst z2.
      destruct S as [S1 [S2 [S3 [S4 _]]]]. exists (ENeg i). auto.
    - destruct (documented_rowop (force_long z) o) as [[[i j] x]|] eqn:ED.
      + destruct (rowop_effect z o i j x HI ED HL) as [z2 [E2 S]]. assert (z2 = z') by congruence. subst z2.
        destruct S as [S|[_ ->]].
        * exists (EAdd i j x). destruct S as [S1 [S2 [S3 [S4 _]]]]. split; [exact S1|]. split; [exact S2|]. split; [exact S4|].
          destruct o; simpl in ED; try discriminate; injection ED as <- <- _; simpl in HR; exact HR.
        * exists ENone. split; [exact HI|]. split; [repeat split|]. split; [split; auto|exact I].
      + destruct o; simpl in ED; try discriminate; simpl in HR; try tauto.
        * destruct (row_swap_ok z i j HI HL) as [z2 [E2 S]]. simpl in E. assert (z2 = z') by congruence. subst z2.
          exists (EPerm (tr i j) (tr i j)). destruct S as [S1 [S2 [S3 [S4 _]]]]. split; [exact S1|]. split; [exact S2|]. split; [exact S4|].
          intros a Ha Hna. unfold tr. destruct (Nat.eqb_spec a i); [subst; tauto|]. destruct (Nat.eqb_spec a j); [subst; tauto|auto].
        * exfalso. apply (Hn i). auto. }
  destruct HX as [e [HI' [HF [[HLn HE] He]]]].
  assert (Hd : gd z' = gd z) by (unfold gd; auto).
  split; auto. split; auto. split; auto.
  intros a Ha Hna.
  destruct (I_b _ HI) as [LB RB]. destruct (I_b _ HI') as [LB' RB']. destruct HF as [Fc _].
  apply list_ext with (d := 0%Z).
  - rewrite RB, RB' by lia. auto.
  - intros k Hk. change (ent (gb z') a k = ent (gb z) a k). destruct e.
    + rewrite HE. destruct (Nat.eqb_spec a i); [subst; tauto|]. lia.
    + rewrite HE by (unfold gd in *; lia). rewrite He by auto. auto.
    + rewrite HE. destruct (Nat.eqb_spec a i); [subst; tauto|]. auto.
    + rewrite HE. auto.
Qed.

Lemma grun_rows f l ops : forall z, Inv z -> legal_run z ops -> Forall (op_in_range f l) ops ->
  exists z', grun z ops = Some z' /\ Inv z' /\ flags_eq z z' /\ same_known z z' /\ gd z' = gd z /\
    forall a, a < gd z -> ~ (f <= a < l) -> nth a (gb z') [] = nth a (gb z) [].
Proof.
  induction ops as [|o ops IH]; intros z HI HL HF.
  - exists z. split; auto. split; auto. split; [repeat split|]. split; [repeat split|]. auto.
  - rewrite grun_cons. destruct HL as [HL HR]. inversion HF; subst.
    assert (exists z1, gstep z o = Some z1) as [z1 E].
    { destruct (is_negate_dec o) as [[i ->]|Hn].
      - destruct (negate_ok z i HI HL) as [z1 [E _]]. eauto.
      - destruct (gstep_ok z o HI HL Hn) as [z1 [e [E _]]]. eauto. }
    rewrite E in *.
    destruct (gstep_rows f l z o z1) as [HI1 [F1 [D1 R1]]]; auto.
    pose proof (gstep_known f l z o z1 H1 E) as K1.
    destruct (IH z1) as [z' [E' [HI' [F' [K' [D' R']]]]]]; auto.
    exists z'. split; auto. split; auto.
    split. { destruct F1 as [? [? [? [? ?]]]]; destruct F' as [? [? [? [? ?]]]]; repeat split; congruence. }
    split. { destruct K1 as [? [? [? [? ?]]]]; destruct K' as [? [? [? [? ?]]]]; repeat split; congruence. }
    split; [congruence|]. intros a Ha Hna. rewrite R', R1; auto. lia.
Qed.

(** ** row_op_end *)
Definition roe_body (z : gz) (i : nat) (s : fst_ fo) : option (fst_ fo) :=
  s1 <- (if en_g z then Some s
         else
           s1 <- update_bf fo en_e z s i;;
           s2 <- invalidate_gram_row fo s1 i;;
           g' <- ofor (seq (i + 1) (nkr z - (i + 1))) (fun j g => mset g j i None) (fgf s2);;
           Some (set_gf fo s2 g'));;
  invalidate_gso_row fo s1 i 0.

Lemma roe_body_ok z s i :
  Inv z -> i < nkr z -> FDims z s ->
  (en_g z = false -> forall k, Nat.max (nkc z) (nth i (irs z) 0) <= k -> nth k (nth i (fbf s) []) f0 = f0) ->
  exists s', roe_body z i s = Some s' /\ FDims z s' /\ fmu s' = fmu s /\ fr s' = fr s /\
    (en_g z = false -> bf_row_ok z s' i) /\
    (forall a, a <> i -> nth a (fbf s') [] = nth a (fbf s) [] /\ nth a (fre s') 0%Z = nth a (fre s) 0%Z) /\
    (en_g z = false -> forall a b, a < nkr z -> b < nkr z -> so (fgf s') a b = if (a =? i) || (b =? i) then None else so (fgf s) a b) /\
    (forall a, nth a (fvc s') 0 = if a =? i then 0 else nth a (fvc s) 0).
Proof.
  intros HI Hi HD HT. unfold roe_body.
  assert (Hid : i < gd z) by (destruct (I_known _ HI); lia).
  assert (HV : forall s1, length (fvc s1) = gd z -> invalidate_gso_row fo s1 i 0 = Some (set_vc fo s1 (upd (fvc s1) i 0))).
  { intros s1 Hl. unfold invalidate_gso_row. rewrite (nth_error_nth' (fvc s1) 0) by lia. cbn [obind]. now rewrite Nat.min_0_r. }
  destruct (en_g z) eqn:EG.
  - cbn [obind]. rewrite HV by apply HD. eexists. split; [reflexivity|].
    split. { destruct HD. constructor; simpl; auto. now rewrite upd_length. }
    repeat (split; auto); try discriminate.
    intros a. simpl. rewrite nth_upd. rewrite (D_vc _ _ HD). gs.
  - destruct (update_bf_ok z s i) as [s1 [E1 [S [B1 [B2 [B3 B4]]]]]]; auto; try apply HD.
    rewrite E1. cbn [obind]. destruct S as [S1 [S2 [S3 S4]]].
    destruct (invalidate_gram_row_ok (gd z) s1 i) as [s2 [E2 [T0 [T1 [T2 [T3 [T4 [T5 T6]]]]]]]]; auto.
    { rewrite S3. apply HD. }
    rewrite E2. cbn [obind].
    destruct (ofor_inv (fun k g => dims (gd z) (gd z) g /\ forall a b, gent None g a b = if (b =? i) && (i <? a) && (a <? k) then None else gent None (fgf s2) a b)
       (fun j g => mset g j i None) (nkr z - (i + 1)) (i + 1) (fgf s2)) as [g' [E3 [D3 H3]]].
    { split; auto. intros a b. gs. }
    { intros k g Hk [Dg Hg]. destruct (I_known _ HI) as [_ [? _]].
      destruct (mset_some (@None FT) (gd z) (gd z) g k i None) as [g2 [Em [Dm Hm]]]; auto; try lia.
      exists g2. split; auto. split; auto. intros a b. rewrite Hm, Hg. gs. }
    rewrite E3. cbn [obind]. rewrite HV by (simpl; rewrite T5, S4; apply HD).
    eexists. split; [reflexivity|].
    split. { destruct HD. constructor; simpl; rewrite ?T1, ?T2, ?T3, ?T4, ?T5, ?S1, ?S2, ?S4; auto. now rewrite upd_length. }
    cbn [fmu fr fgf fbf fre fvc set_vc set_gf].
    split; [congruence|]. split; [congruence|].
    split. { intros _. unfold bf_row_ok in *. cbn [fbf fre set_vc set_gf]. rewrite T3, T4. auto. }
    split. { intros a Ha. rewrite T3, T4. auto. }
    split.
    { intros _ a b Ha Hb. unfold sgent. rewrite !H3, !T6, S3.
      replace (i + 1 + (nkr z - (i + 1))) with (nkr z) by lia.
      destruct (Nat.leb_spec b a); gs. }
    intros a. rewrite T5, S4, nth_upd. rewrite (D_vc _ _ HD). gs.
Qed.

Lemma row_op_end_ok z z' s f l :
  FInv z s -> Inv z' -> flags_eq z z' -> same_known z z' -> gd z' = gd z -> f <= l <= nkr z ->
  (forall a, a < gd z -> ~ (f <= a < l) -> nth a (gb z') [] = nth a (gb z) []) ->
  exists s', row_op_end fo en_e z' s f l = Some s' /\ FInv z' s'.
Proof.
  intros HF HI' HFl HK Hd Hfl HR.
  pose proof HFl as [Fc [Fg _]]. pose proof HK as [K1 [K2 [K3 [K4 K5]]]].
  pose proof (F_inv _ _ HF) as HI. pose proof (F_dims _ _ HF) as HD.
  assert (HD' : FDims z' s).
  { destruct HD. constructor; rewrite ?Hd, ?Fc; auto. }
  assert (Hkd : nkr z <= gd z) by (destruct (I_known _ HI); lia).
  change (row_op_end fo en_e z' s f l) with
    (obind (ofor (seq f (l - f)) (fun i s => roe_body z' i s) s)
           (fun s1 => ofor (seq l (nkr z' - l)) (fun i s => invalidate_gso_row fo s i f) s1)).
  destruct (ofor_inv (fun k sk => FDims z' sk /\ fmu sk = fmu s /\ fr sk = fr s /\
      (en_g z = false -> forall a, f <= a < k -> bf_row_ok z' sk a) /\
      (forall a, ~ (f <= a < k) -> nth a (fbf sk) [] = nth a (fbf s) [] /\ nth a (fre sk) 0%Z = nth a (fre s) 0%Z) /\
      (en_g z = false -> forall a b, a < nkr z -> b < nkr z -> so (fgf sk) a b =
          if ((f <=? a) && (a <? k)) || ((f <=? b) && (b <? k)) then None else so (fgf s) a b) /\
      (forall a, nth a (fvc sk) 0 = if (f <=? a) && (a <? k) then 0 else nth a (fvc s) 0))
    (fun i s => roe_body z' i s) (l - f) f s) as [s1 [E1 [D1 [M1 [R1 [B1 [O1 [G1 V1]]]]]]]].
  - split; auto. split; auto. split; auto. split; [lia|]. split; auto. split.
    + intros _ a b _ _. gs.
    + intros a. gs.
  - intros k sk Hk [D2 [M2 [R2 [B2 [O2 [G2 V2]]]]]].
    destruct (roe_body_ok z' sk k) as [s' [E [D3 [M3 [R3 [B3 [O3 [G3 V3]]]]]]]]; auto; try lia.
    { intros EG kk Hkk. destruct (O2 k) as [X _]; [lia|]. rewrite X.
      destruct (F_bf _ _ HF) with (i := k) as [Y _]; try congruence; try lia. rewrite Y.
      apply encrow_zero. apply (I_tail _ HI k); try lia. rewrite <- K3, <- K5. auto. }
    exists s'. split; auto. split; auto. split; [congruence|]. split; [congruence|].
    split. { intros EG a Ha. destruct (Nat.eq_dec a k) as [->|Hne].
             - apply B3. congruence.
             - destruct (B2 EG a) as [Y1 Y2]; [lia|]. destruct (O3 a Hne) as [X1 X2]. split; [rewrite X1; auto|intros; rewrite X2; auto]. }
    split. { intros a Ha. destruct (O3 a) as [X1 X2]; [lia|]. destruct (O2 a) as [Y1 Y2]; [lia|]. rewrite X1, X2; auto. }
    split. { intros EG a b Ha Hb. rewrite G3 by (try congruence; lia). rewrite G2 by auto. gs. }
    intros a. rewrite V3, V2. gs.
  - rewrite E1. cbn [obind]. rewrite K1.
    destruct (invalidate_gso_rows_ok f (nkr z - l) l s1) as [s2 [E2 [N1 [N2 [N3 [N4 [N5 [N6 N7]]]]]]]].
    { rewrite (D_vc _ _ D1). lia. }
    rewrite E2. eexists. split; [reflexivity|].
    replace (f + (l - f)) with l in * by lia. replace (l + (nkr z - l)) with (nkr z) in N7 by lia.
    assert (HGr : forall a b, a < gd z -> b < gd z -> ~ (f <= a < l) -> ~ (f <= b < l) -> Gr z' a b = Gr z a b).
    { intros a b Ha Hb Hna Hnb. unfold gram_ref. rewrite Fg, Fc, !HR by auto. auto. }
    constructor; auto.
    + destruct D1. constructor; rewrite ?N1, ?N2, ?N3, ?N4, ?N5, ?N6; auto.
    + intros EG i Hi. rewrite Fg in EG. unfold bf_row_ok. rewrite N4, N5.
      destruct (le_lt_dec f i); [destruct (le_lt_dec l i)|].
      * destruct (O1 i) as [X1 X2]; [lia|]. rewrite X1, X2, HR by lia. apply (F_bf _ _ HF); auto; lia.
      * apply (B1 EG i). lia.
      * destruct (O1 i) as [X1 X2]; [lia|]. rewrite X1, X2, HR by lia. apply (F_bf _ _ HF); auto; lia.
    + intros EG i j v Hi Hj. rewrite Fg in EG. rewrite K1 in Hi, Hj. rewrite N3, G1 by auto.
      destruct ((f <=? i) && (i <? l)) eqn:C1; [discriminate|].
      destruct ((f <=? j) && (j <? l)) eqn:C2; [discriminate|]. cbn [orb]. intros Hv.
      rewrite HGr; try lia.
      * apply (F_gf _ _ HF EG); auto.
      * apply andb_false_iff in C1. rewrite Nat.leb_gt, Nat.ltb_ge in C1. lia.
      * apply andb_false_iff in C2. rewrite Nat.leb_gt, Nat.ltb_ge in C2. lia.
    + intros i Hi. rewrite K1 in Hi. destruct (F_co _ _ HF i Hi) as [C1 C2].
      rewrite N7, V1, N1, N2, M1, R1.
      destruct (le_lt_dec f i) as [Hfi|Hfi]; [destruct (le_lt_dec l i) as [Hli|Hli]|].
      * (* i >= l *)
        destruct (Nat.leb_spec l i); [|lia]. destruct (Nat.ltb_spec i (nkr z)); [|lia]. cbn [andb].
        destruct (Nat.leb_spec f i); [|lia]. destruct (Nat.ltb_spec i l); [lia|]. cbn [andb].
        split; [lia|]. intros j Hj. destruct (C2 j) as [C3 C4]; [lia|].
        split.
        -- rewrite C3. symmetry. apply refR_reindex; intros; apply HGr; lia.
        -- intros Hji. rewrite C4 by auto. symmetry. apply refM_reindex; intros; apply HGr; lia.
      * destruct (Nat.leb_spec l i); [lia|]. cbn [andb].
        destruct (Nat.leb_spec f i); [|lia]. destruct (Nat.ltb_spec i l); [|lia]. cbn [andb]. split; [lia|]. lia.
      * destruct (Nat.leb_spec l i); [lia|]. cbn [andb].
        destruct (Nat.leb_spec f i); [lia|]. cbn [andb]. split; auto. intros j Hj. destruct (C2 j) as [C3 C4]; auto.
        split.
        -- rewrite C3. symmetry. apply refR_reindex; intros; apply HGr; lia.
        -- intros Hji. rewrite C4 by auto. symmetry. apply refM_reindex; intros; apply HGr; lia.
Qed.

(** ** discover_row *)
Lemma discover_known z z' : discover_row z = Some z' ->
  gb z' = gb z /\ flags_eq z z' /\ nkr z' = S (nkr z) /\ nsr z' = (if locked z then nsr z else S (nkr z)) /\ locked z' = locked z.
Proof.
  unfold discover_row. destruct (nth_error (irs z) (nkr z)); cbn [obind]; [|discriminate]. cbv zeta.
  known_tac; repeat split; auto.
Qed.

Lemma fdiscover_ok z s : FInv z s -> legal z ODiscover ->
  exists z' s', fdiscover_row fo z s = Some (z', s') /\ FInv z' s' /\ discover_row z = Some z' /\
    (forall a, a <> nkr z -> nth a (fvc s') 0 = nth a (fvc s) 0).
Proof.
  intros HF HL. pose proof (F_inv _ _ HF) as HI. pose proof (F_dims _ _ HF) as HD.
  destruct (discover_row_ok z HI HL) as [z' [E S]]. pose proof S as [HI' _].
  destruct (discover_known z z' E) as [Hb [HFl [Hk [Hs Hlk]]]].
  destruct HL as [HL1 _]. pose proof HFl as [Fc [Fg _]].
  assert (Hd : gd z' = gd z) by (unfold gd; now rewrite Hb).
  unfold fdiscover_row. rewrite E. cbn [obind].
  assert (HX : exists s1, (if en_g z then Some s else invalidate_gram_row fo s (nkr z)) = Some s1 /\
      FDims z s1 /\ fmu s1 = fmu s /\ fr s1 = fr s /\ fbf s1 = fbf s /\ fre s1 = fre s /\ fvc s1 = fvc s /\
      (en_g z = false -> forall a b, a <= nkr z -> b <= nkr z -> so (fgf s1) a b = if (a =? nkr z) || (b =? nkr z) then None else so (fgf s) a b)).
  { destruct (en_g z).
    - exists s. repeat (split; auto). discriminate.
    - destruct (invalidate_gram_row_ok (gd z) s (nkr z)) as [s2 [E2 [T0 [T1 [T2 [T3 [T4 [T5 T6]]]]]]]]; auto; [apply HD|].
      exists s2. split; auto. split. { destruct HD; constructor; rewrite ?T1, ?T2, ?T3, ?T4, ?T5; auto. }
      repeat (split; auto). intros _ a b Ha Hb'. unfold sgent. rewrite !T6. destruct (Nat.leb_spec b a); gs. }
  destruct HX as [s1 [E1 [D1 [M1 [R1 [B1 [X1 [V1 G1]]]]]]]].
  rewrite E1. cbn [obind]. rewrite (nth_error_nth' (fvc s1) 0) by (rewrite (D_vc _ _ D1); auto). cbn [obind].
  eexists; eexists. split; [reflexivity|]. split; [|split; auto].
  - constructor; auto.
    + destruct D1. constructor; cbn [fmu fr fgf fbf fre fvc set_vc]; rewrite ?Hd, ?Fc, ?upd_length; auto.
    + intros EG i Hi. rewrite Fg in EG. unfold bf_row_ok. cbn [fbf fre set_vc]. rewrite B1, X1, Hb. apply (F_bf _ _ HF); auto. congruence.
    + intros EG i j v Hi Hj. rewrite Fg in EG. cbn [fgf set_vc]. rewrite G1 by (auto; lia).
      destruct (Nat.eqb_spec i (nkr z)); [discriminate|]. destruct (Nat.eqb_spec j (nkr z)); [discriminate|].
      cbn [orb]. rewrite Fc, Fg, Hb. intros Hv. apply (F_gf _ _ HF EG); auto; lia.
    + intros i Hi. cbn [fmu fr fvc set_vc]. rewrite M1, R1, V1, nth_upd, (D_vc _ _ HD). rewrite Fc, Fg, Hb.
      destruct (Nat.eqb_spec i (nkr z)); cbn [andb].
      * destruct (Nat.ltb_spec (nkr z) (gd z)); [|lia]. split; lia.
      * apply (F_co _ _ HF). lia.
  - intros a Ha. cbn [fvc set_vc]. rewrite V1. apply nth_upd_neq. auto.
Qed.

Lemma lock_FInv z s : FInv z s -> legal z OLock -> FInv (lock_cols z) s.
Proof.
  intros HF HL. pose proof (lock_ok z (F_inv _ _ HF) HL) as [HI _].
  destruct HF as [F1 F3 F4 F5 F6]. constructor; auto. destruct F3; constructor; auto.
Qed.
Lemma unlock_FInv z s : FInv z s -> FInv (unlock_cols z) s.
Proof.
  intros HF. pose proof (unlock_ok z (F_inv _ _ HF)) as [HI _].
  destruct HF as [F1 F3 F4 F5 F6]. destruct (I_known _ F1). constructor; auto.
  - destruct F3; constructor; auto.
  - intros EG i j v Hi Hj. apply (F5 EG); simpl in *; lia.
  - intros i Hi. apply F6. simpl in *; lia.
Qed.

(** ** get_gram *)
Lemma get_gram_ok z s i j : FInv z s -> i < nkr z -> j <= i -> j < nsr z ->
  exists g', get_gram fo z s i j = Some (Gr z i j, set_gf fo s g') /\ FInv z (set_gf fo s g').
Proof.
  intros HF Hi Hj Hjs. pose proof (F_inv _ _ HF) as HI. pose proof (F_dims _ _ HF) as HD.
  destruct (I_known _ HI) as [K1 [K2 K3]]. unfold get_gram.
  assert (HS : set_gf fo s (fgf s) = s) by (destruct s; reflexivity).
  destruct (en_g z) eqn:EG.
  - exists (fgf s). rewrite HS. split; auto. destruct (I_g _ HI EG) as [_ [Dg HG]].
    rewrite (mget_some 0%Z (gd z) (gd z)) by (auto; lia). cbn [obind].
    specialize (HG i j Hi). unfold sgent in HG. destruct (Nat.leb_spec j i); [|lia]. rewrite HG by lia. reflexivity.
  - rewrite (mget_some (@None FT) (gd z) (gd z)) by (try apply HD; lia). cbn [obind].
    assert (HSO : gent (@None FT) (fgf s) i j = so (fgf s) i j) by (unfold sgent; destruct (Nat.leb_spec j i); [auto|lia]).
    destruct (gent None (fgf s) i j) as [v|] eqn:EV.
    + exists (fgf s). rewrite HS. split; auto. f_equal. f_equal.
      rewrite <- EG. apply (F_gf _ _ HF EG); auto. lia.
    + destruct (D_bf _ _ HD) as [LB RB].
      rewrite (nth_error_nth' (fbf s) []) by lia. cbn [obind].
      rewrite (nth_error_nth' (fbf s) []) by lia. cbn [obind].
      destruct (F_bf _ _ HF EG i) as [Bi _]; [lia|]. destruct (F_bf _ _ HF EG j) as [Bj _]; [lia|].
      rewrite (fdot_spec _ _ (nkc z) (gc z)).
      * cbn [obind].
        destruct (mset_some (@None FT) (gd z) (gd z) (fgf s) i j (Some (fdotall fo (gc z) (nth i (fbf s) []) (nth j (fbf s) []))))
          as [g' [Em [Dm Hm]]]; try apply HD; try lia.
        rewrite Em. cbn [obind]. exists g'.
        assert (HV : fdotall fo (gc z) (nth i (fbf s) []) (nth j (fbf s) []) = gram_ref fo en_e false (gc z) (gb z) i j).
        { unfold gram_ref. rewrite Bi, Bj. auto. }
        rewrite HV. split; auto.
        constructor; auto.
        -- destruct HD. constructor; auto.
        -- apply (F_bf _ _ HF).
        -- intros _ a b v Ha Hb. cbn [fgf set_gf]. intros Hv.
           assert (so g' a b = if ((a =? i) && (b =? j)) || ((a =? j) && (b =? i)) then Some (gram_ref fo en_e false (gc z) (gb z) i j) else so (fgf s) a b) as X.
           { unfold sgent. rewrite !Hm, HV. destruct (Nat.leb_spec b a); gs. }
           rewrite X in Hv. rewrite EG.
           destruct ((a =? i) && (b =? j)) eqn:C1; cbn [orb] in Hv.
           { apply andb_true_iff in C1. rewrite !Nat.eqb_eq in C1. destruct C1 as [-> ->]. congruence. }
           destruct ((a =? j) && (b =? i)) eqn:C2.
           { apply andb_true_iff in C2. rewrite !Nat.eqb_eq in C2. destruct C2 as [-> ->].
             rewrite Gr_sym. congruence. }
           rewrite <- EG. apply (F_gf _ _ HF EG); auto.
        -- apply (F_co _ _ HF).
      * destruct (I_kc _ HI); lia.
      * apply RB. lia.
      * apply RB. lia.
      * intros k Hk. rewrite Bj. apply encrow_zero. apply (I_src _ HI j k); auto.
Qed.

(** ** the update loop *)
Lemma ofor_fold {S} (f : nat -> S -> option S) (g : S -> nat -> S) l : forall a,
  (forall k a, In k l -> f k a = Some (g a k)) -> ofor l f a = Some (fold_left g l a).
Proof.
  induction l as [|x l IH]; intros a H; simpl; auto. rewrite H by (left; auto). cbn [obind].
  apply IH. intros; apply H; right; auto.
Qed.

Lemma sub_loop_ok z s i j G : FDims z s -> i < gd z -> j < gd z ->
  (forall k, k < j -> ge (fmu s) j k = refM fo G j k) ->
  (forall k, k < j -> ge (fr s) i k = refR fo G i k) ->
  sub_loop fo s i j (G i j) = Some (refR fo G i j).
Proof.
  intros HD Hi Hj H1 H2. unfold sub_loop. rewrite refR_unfold.
  apply ofor_fold. intros k a Hk. apply in_seq in Hk.
  rewrite (mget_some f0 (gd z) (gd z)) by (try apply HD; lia). cbn [obind].
  rewrite (mget_some f0 (gd z) (gd z)) by (try apply HD; lia). cbn [obind].
  rewrite H1, H2 by lia. reflexivity.
Qed.

Definition progress (z : gz) (s : fst_ fo) (i j : nat) : Prop :=
  forall k, k < j -> ge (fr s) i k = refR fo (Gr z) i k /\ (k < i -> ge (fmu s) i k = refM fo (Gr z) i k).

Lemma write_FInv z s i j mu' r' : FInv z s -> nth i (fvc s) 0 <= j ->
  dims (gd z) (gd z) mu' -> dims (gd z) (gd z) r' ->
  (forall a b, (a <> i \/ b <> j) -> ge mu' a b = ge (fmu s) a b) ->
  (forall a b, (a <> i \/ b <> j) -> ge r' a b = ge (fr s) a b) ->
  FInv z (set_mu fo (set_r_ fo s r') mu').
Proof.
  intros HF Hv D1 D2 H1 H2. destruct HF as [F1 F3 F4 F5 F6]. constructor; auto.
  - destruct F3. constructor; auto.
  - intros a Ha. destruct (F6 a Ha) as [C1 C2]. cbn [fmu fr fvc set_mu set_r_]. split; auto.
    intros b Hb. destruct (C2 b Hb) as [C3 C4].
    assert (a <> i \/ b <> j) by (destruct (Nat.eq_dec a i); subst; lia).
    rewrite H2, H1 by auto. auto.
Qed.

Lemma update_loop_ok z i : i < nkr z -> forall cnt s j, FInv z s ->
  nth i (fvc s) 0 <= j -> j + cnt <= S i -> j + cnt <= nsr z \/ cnt = 0 -> progress z s i j ->
  (forall k, j <= k < j + cnt -> k < i -> k < nth k (fvc s) 0) ->
  exists s' ok, update_loop fo z s i j cnt = Some (s', ok) /\ FInv z s' /\ fvc s' = fvc s /\
    (ok = true -> progress z s' i (j + cnt)) /\
    (ok = false -> exists k, j <= k < j + cnt /\ k < i /\ f_fin fo (refR fo (Gr z) i k) (refR fo (Gr z) k k) = false).
Proof.
  intros Hi. induction cnt as [|cnt IH]; intros s j HF Hv Hji Hjs HP HB; cbn [update_loop].
  - exists s, true. rewrite Nat.add_0_r. repeat (split; auto). discriminate.
  - destruct Hjs as [Hjs|]; [|lia].
    destruct (I_known _ (F_inv _ _ HF)) as [K1 [K2 K3]].
    destruct (get_gram_ok z s i j) as [g' [Eg HF1]]; auto; try lia.
    rewrite Eg. cbn [obind].
    pose proof (F_dims _ _ HF1) as D1.
    rewrite (sub_loop_ok z (set_gf fo s g') i j (Gr z)); auto; try lia.
    2:{ intros k Hk. cbn [fmu set_gf]. destruct (Nat.eq_dec j i) as [->|Hne].
        - apply HP; lia.
        - apply (F_co _ _ HF j); try lia. assert (j < nth j (fvc s) 0) by (apply HB; lia). lia. }
    2:{ intros k Hk. cbn [fr set_gf]. apply HP; auto. }
    cbn [obind].
    destruct (mset_some f0 (gd z) (gd z) (fr (set_gf fo s g')) i j (refR fo (Gr z) i j)) as [r' [Er [Dr Hr]]]; try apply D1; try lia.
    rewrite Er. cbn [obind]. cbv zeta. cbn [fr set_gf] in Hr.
    destruct (Nat.ltb_spec j i) as [Hlt|Hge].
    + rewrite (mget_some f0 (gd z) (gd z)) by (auto; lia). cbn [obind].
      assert (HJJ : ge r' j j = refR fo (Gr z) j j).
      { rewrite Hr. destruct (Nat.eqb_spec j i); [lia|]. cbn [andb].
        apply (F_co _ _ HF j); try lia. apply HB; lia. }
      rewrite HJJ.
      destruct (mset_some f0 (gd z) (gd z) (fmu (set_r_ fo (set_gf fo s g') r')) i j (f_div fo (refR fo (Gr z) i j) (refR fo (Gr z) j j)))
        as [mu' [Em [Dm Hm]]]; try (cbn [fmu set_r_]; apply D1); try lia.
      rewrite Em. cbn [obind]. cbn [fmu set_r_ set_gf] in Hm.
      assert (HF2 : FInv z (set_mu fo (set_r_ fo (set_gf fo s g') r') mu')).
      { apply (write_FInv z (set_gf fo s g') i j); auto.
        - intros a b Hab. rewrite Hm. cbn [fmu set_gf]. gs.
        - intros a b Hab. rewrite Hr. cbn [fr set_gf]. gs. }
      destruct (f_fin fo _ _) eqn:EF.
      * destruct (IH (set_mu fo (set_r_ fo (set_gf fo s g') r') mu') (S j)) as [s' [ok [E [HF' [Hvc [HP' HQ']]]]]]; auto; try lia.
        -- intros k Hk. cbn [fr fmu set_mu set_r_ set_gf]. rewrite Hr, Hm.
           destruct (Nat.eqb_spec i i); [|lia]. destruct (Nat.eqb_spec k j); cbn [andb].
           ++ subst. split; auto.
           ++ apply HP. lia.
        -- intros k Hk Hki. cbn [fvc set_mu set_r_ set_gf]. apply HB; lia.
        -- exists s', ok. split; auto. split; auto. split; auto. replace (j + S cnt) with (S j + cnt) by lia.
           split; auto. intros Hok. destruct (HQ' Hok) as [k [Q1 [Q2 Q3]]]. exists k. split; [lia|auto].
      * eexists; exists false. split; [reflexivity|]. split; auto. split; auto. split; [discriminate|].
        intros _. exists j. split; [lia|auto].
    + assert (HF2 : FInv z (set_r_ fo (set_gf fo s g') r')).
      { apply (write_FInv z (set_gf fo s g') i j (fmu s)); auto.
        - apply D1.
        - intros a b Hab. rewrite Hr. cbn [fr set_gf]. gs. }
      destruct (IH (set_r_ fo (set_gf fo s g') r') (S j)) as [s' [ok [E [HF' [Hvc [HP' HQ']]]]]]; auto; try lia.
      * intros k Hk. cbn [fr fmu set_mu set_r_ set_gf]. rewrite Hr.
        destruct (Nat.eqb_spec i i); [|lia]. destruct (Nat.eqb_spec k j); cbn [andb].
        -- subst. split; [auto|lia].
        -- apply HP. lia.
      * exists s', ok. split; auto. split; auto. split; auto. replace (j + S cnt) with (S j + cnt) by lia.
        split; auto. intros Hok. destruct (HQ' Hok) as [k [Q1 [Q2 Q3]]]. exists k. split; [lia|auto].
Qed.

Lemma set_vc_FInv z s i v : FInv z s -> i < nkr z -> v <= S i -> progress z s i v -> FInv z (set_vc fo s (upd (fvc s) i v)).
Proof.
  intros HF Hi Hv HP. destruct HF as [F1 F3 F4 F5 F6]. constructor; auto.
  - destruct F3. constructor; auto. cbn [fvc set_vc]. now rewrite upd_length.
  - intros a Ha. cbn [fmu fr fvc set_vc]. rewrite nth_upd. destruct (Nat.eqb_spec a i); cbn [andb].
    + subst. destruct (i <? length (fvc s)); [|apply F6; auto]. split; auto.
    + apply F6; auto.
Qed.

Lemma update_gso_row_ok z s i lj : FInv z s -> flegal fo (z, s) (FUpdate i lj) ->
  exists z' s' ok, update_gso_row fo z s i lj = Some (z', s', ok) /\ FInv z' s' /\ flags_eq z z' /\ gb z' = gb z /\
    (ok = true -> lj < nth i (fvc s') 0) /\
    (ok = false -> exists k, k <= lj /\ k < i /\ f_fin fo (refR fo (Gr z') i k) (refR fo (Gr z') k k) = false).
Proof.
  intros HF [Hd [Hik [HLD [Hlj [Hsrc HB]]]]]. unfold update_gso_row.
  assert (HX : exists z1 s1, (if nkr z <=? i then fdiscover_row fo z s else Some (z, s)) = Some (z1, s1) /\
      FInv z1 s1 /\ flags_eq z z1 /\ gb z1 = gb z /\ i < nkr z1 /\ lj < nsr z1 /\ (forall j, j <= lj -> j < i -> j < nth j (fvc s1) 0)).
  { destruct (Nat.leb_spec (nkr z) i).
    - assert (i = nkr z) by lia. subst i.
      destruct (fdiscover_ok z s HF (HLD eq_refl)) as [z1 [s1 [E [HF1 [ED HV]]]]].
      destruct (discover_known z z1 ED) as [Hb [HFl [Hk [Hs Hlk]]]].
      exists z1, s1. split; auto. split; auto. split; auto. split; auto. split; [lia|]. split.
      + rewrite Hs. rewrite Nat.eqb_refl in Hsrc. destruct (locked z); simpl in Hsrc; lia.
      + intros j Hj1 Hj2. rewrite HV by lia. apply HB; auto.
    - exists z, s. split; auto. split; auto. split; [repeat split|]. split; auto. split; auto. split; auto.
      destruct (Nat.eqb_spec i (nkr z)); [lia|]. simpl in Hsrc. auto. }
  destruct HX as [z1 [s1 [E1 [HF1 [Fl [Hb [Hi [Hs HB1]]]]]]]]. rewrite E1. cbn [obind].
  pose proof (F_dims _ _ HF1) as D1. destruct (I_known _ (F_inv _ _ HF1)) as [K1 [K2 K3]].
  rewrite (nth_error_nth' (fvc s1) 0) by (rewrite (D_vc _ _ D1); lia). cbn [obind].
  destruct (F_co _ _ HF1 i Hi) as [C1 C2].
  destruct (update_loop_ok z1 i Hi (S lj - nth i (fvc s1) 0) s1 (nth i (fvc s1) 0)) as [s2 [ok [E2 [HF2 [Hvc [HP HQ]]]]]]; auto; try lia.
  { intros k Hk Hki. apply HB1; auto; lia. }
  rewrite E2. cbn [obind]. destruct ok.
  - eexists; eexists; exists true. split; [reflexivity|]. split; [|split; auto; split; auto; split; [|discriminate]].
    + apply set_vc_FInv; auto; [lia|]. replace (Nat.max (nth i (fvc s1) 0) (S lj)) with (nth i (fvc s1) 0 + (S lj - nth i (fvc s1) 0)) by lia. auto.
    + intros _. cbn [fvc set_vc]. rewrite Hvc, nth_upd_eq by (rewrite (D_vc _ _ D1); lia). lia.
  - eexists; eexists; exists false. split; [reflexivity|]. split; auto. split; auto. split; auto. split; [discriminate|].
    intros _. destruct (HQ eq_refl) as [k [Q1 [Q2 Q3]]]. exists k. split; [lia|auto].
Qed.

(** ** set_r *)
Lemma set_r_ok z s i j x : FInv z s -> flegal fo (z, s) (FSetR i j x) ->
  exists s', set_r fo s i j x = Some s' /\ FInv z s'.
Proof.
  intros HF [Hi [Hj [Hv [-> HR]]]].
  pose proof (F_dims _ _ HF) as D. destruct (I_known _ (F_inv _ _ HF)) as [K1 [K2 K3]].
  unfold r_value in HR. destruct (get_gram_ok z s i i) as [g' [Eg HF1]]; auto.
  rewrite Eg in HR. cbn [obind fst snd] in HR.
  destruct (F_co _ _ HF i Hi) as [C1 C2].
  rewrite (sub_loop_ok z (set_gf fo s g') i i (Gr z)) in HR; try apply HF1; try lia.
  2:{ intros k Hk. cbn [fmu set_gf]. apply C2; lia. }
  2:{ intros k Hk. cbn [fr set_gf]. apply C2; lia. }
  injection HR as <-. unfold set_r.
  destruct (mset_some f0 (gd z) (gd z) (fr s) i i (refR fo (Gr z) i i)) as [r' [Er [Dr Hr]]]; try apply D; try lia.
  rewrite Er. cbn [obind]. rewrite (nth_error_nth' (fvc s) 0) by (rewrite (D_vc _ _ D); lia). cbn [obind].
  assert (HP : forall v, v <= S i -> v <= nth i (fvc s) 0 \/ v = S i -> progress z (set_r_ fo s r') i v).
  { intros v Hv1 Hv2 k Hk. cbn [fr fmu set_r_]. rewrite Hr. rewrite Nat.eqb_refl. cbn [andb].
    destruct (Nat.eqb_spec k i).
    - subst. split; auto. lia.
    - apply C2. lia. }
  assert (HF2 : FInv z (set_r_ fo s r')).
  { destruct HF as [F1 F3 F4 F5 F6]. constructor; auto.
    - destruct F3; constructor; auto.
    - intros a Ha. cbn [fmu fr fvc set_r_]. destruct (F6 a Ha) as [C3 C4]. split; auto. intros b Hb. destruct (C4 b Hb) as [C5 C6].
      split; [|exact C6]. rewrite Hr. destruct (Nat.eqb_spec a i); [destruct (Nat.eqb_spec b i)|]; cbn [andb]; subst; auto. }
  eexists. split; [reflexivity|]. destruct (Nat.eqb_spec (nth i (fvc s) 0) i) as [He|He]; auto.
  rewrite He. apply (set_vc_FInv z (set_r_ fo s r') i (S i)); auto.
Qed.

(** ** move_row *)
Lemma move_known z o n z' : move_row z o n = Some z' ->
  flags_eq z z' /\ nkr z' = (if (o <? nkr z) && (nkr z <=? n) && (o <? n) then nkr z - 1 else nkr z).
Proof.
  unfold move_row. destruct (Nat.ltb_spec n o).
  - destruct (rotate_right_by_swap (gb z) n o); cbn [obind]; [|discriminate].
    destruct (en_t z) eqn:ET.
    + destruct (rotate_right_by_swap (gu z) n o); cbn [obind]; [|discriminate].
      destruct (en_i z) eqn:EI.
      * destruct (rotate_right_by_swap (gui z) n o); cbn [obind]; [|discriminate].
        known_tac; simpl; (split; [repeat split; auto|gs]).
      * cbn [obind]. known_tac; simpl; (split; [repeat split; auto|gs]).
    + cbn [obind]. known_tac; simpl; (split; [repeat split; auto|gs]).
  - destruct (Nat.ltb_spec o n).
    2:{ intros E; injection E as <-. split; [repeat split|]. gs. }
    destruct (rotate_left_by_swap (gb z) o n) as [b'|]; cbn [obind]; [|discriminate].
    set (T := if en_t z then _ else _). destruct T as [z2|] eqn:ET; cbn [obind]; [|discriminate].
    assert (X2 : flags_eq z z2 /\ nkr z2 = nkr z).
    { revert ET. unfold T. clear T. destruct (en_t z) eqn:E1.
      - destruct (rotate_left_by_swap (gu z) o n); cbn [obind]; [|discriminate].
        destruct (en_i z) eqn:E2.
        + destruct (rotate_left_by_swap (gui z) o n); cbn [obind]; [|discriminate].
          intros E; injection E as <-. repeat split; simpl; auto.
        + intros E; injection E as <-. repeat split; simpl; auto.
      - intros E; injection E as <-. repeat split; simpl; auto. }
    clear T ET. set (T := if en_g z then _ else _). destruct T as [z3|] eqn:ET; cbn [obind]; [|discriminate].
    assert (X3 : flags_eq z z3 /\ nkr z3 = nkr z).
    { revert ET. unfold T. destruct X2 as [X2 X2'].
      destruct (en_g z) eqn:E1; [|intros E; injection E as <-; auto].
      destruct (S o <? nkr z); [|intros E; injection E as <-; auto].
      destruct (rotate_gram_left _ _ _ _); cbn [obind]; [|discriminate]. intros E; injection E as <-.
      destruct X2 as [? [? [? [? ?]]]]. repeat split; simpl; auto. }
    destruct X3 as [X3 X3']. clear T ET X2.
    destruct (Nat.leb_spec (nkr z) n).
    + destruct (rotate_left_by_swap (irs z) o n); cbn [obind]; [|discriminate].
      destruct (Nat.ltb_spec o (nkr z)).
      * destruct (nth_error b' n); cbn [obind]; [|discriminate]. intros E; injection E as <-. simpl. split; auto.
      * intros E; injection E as <-. simpl. split; auto.
    + intros E; injection E as <-. split; auto. rewrite andb_false_r. auto.
Qed.

Lemma Gr_perm z z' (p : nat -> nat) a b : gc z' = gc z -> en_g z' = en_g z ->
  nth a (gb z') [] = nth (p a) (gb z) [] -> nth b (gb z') [] = nth (p b) (gb z) [] -> Gr z' a b = Gr z (p a) (p b).
Proof. intros H1 H2 H3 H4. unfold gram_ref. rewrite H1, H2, H3, H4. auto. Qed.

Lemma fmove_core z s z' s1 s' f (p : nat -> nat) :
  FInv z s -> Inv z' -> flags_eq z z' -> gd z' = gd z -> nkr z' <= nkr z ->
  (forall a, a < gd z -> p a < gd z) ->
  (forall a, a < nkr z' -> p a < nkr z) ->
  (forall a, a < f -> p a = a) -> (forall a, f <= a -> f <= p a) ->
  (forall a, a < gd z -> nth a (gb z') [] = nth (p a) (gb z) []) ->
  fmu s1 = fmu s -> fr s1 = fr s ->
  (forall a, a < nkr z -> nth a (fvc s1) 0 = if f <=? a then Nat.min (nth a (fvc s) 0) f else nth a (fvc s) 0) ->
  FDims z s' ->
  (forall a b, a < gd z -> ge (fmu s') a b = ge (fmu s1) (p a) b) ->
  (forall a b, a < gd z -> ge (fr s') a b = ge (fr s1) (p a) b) ->
  (forall a, a < gd z -> nth a (fvc s') 0 = nth (p a) (fvc s1) 0) ->
  (en_g z = false -> forall a, a < gd z -> nth a (fbf s') [] = nth (p a) (fbf s) []) ->
  (en_e = true -> forall a, a < gd z -> nth a (fre s') 0%Z = nth (p a) (fre s) 0%Z) ->
  (en_g z = false -> forall a b, a < nkr z' -> b < nkr z' -> so (fgf s') a b = so (fgf s) (p a) (p b)) ->
  FInv z' s'.
Proof.
  intros HF HI' Fl Hd Hk Hpd Hpk Hpf Hpg Hb Em Er Ev HD Mu Rr Vc Bf Re Gf.
  pose proof Fl as [Fc [Fg _]]. pose proof (F_inv _ _ HF) as HI. destruct (I_known _ HI) as [K1 [K2 K3]].
  constructor; auto.
  - destruct HD. constructor; rewrite ?Hd, ?Fc; auto.
  - intros EG i Hi. rewrite Fg in EG. rewrite Hd in Hi. unfold bf_row_ok. rewrite Bf, Hb by auto.
    destruct (F_bf _ _ HF EG (p i)) as [X1 X2]; auto. split; auto. intros EE. rewrite Re by auto. auto.
  - intros EG i j v Hi Hj. rewrite Fg in EG. rewrite Gf by auto. intros Hv.
    rewrite (Gr_perm z z' p) by (auto; apply Hb; lia). apply (F_gf _ _ HF EG); auto.
  - intros i Hi. rewrite Vc by lia. rewrite Ev by auto.
    assert (HG : forall a b, a < nkr z' -> b < nkr z' -> Gr z' a b = Gr z (p a) (p b)).
    { intros. apply Gr_perm; auto; apply Hb; lia. }
    destruct (F_co _ _ HF (p i)) as [C1 C2]; auto.
    assert (HR : forall j, (j < f /\ f <= i) \/ (j <= i /\ i < f) ->
        refR fo (Gr z') i j = refR fo (Gr z) (p i) j /\ refM fo (Gr z') i j = refM fo (Gr z) (p i) j).
    { intros j Hj.
      assert (X1 : forall k, k <= j -> Gr z' i k = Gr z (p i) k).
      { intros k Hkj. rewrite HG by lia. rewrite (Hpf k) by lia. auto. }
      assert (X2 : forall a k, k <= a -> a <= j -> Gr z' a k = Gr z a k).
      { intros a k H1 H2. rewrite HG by lia. rewrite (Hpf k), (Hpf a) by lia. auto. }
      split; [apply refR_reindex|apply refM_reindex]; auto. }
    destruct (le_lt_dec f i) as [Hfi|Hfi].
    + pose proof (Hpg i Hfi). destruct (Nat.leb_spec f (p i)); [|lia]. split; [lia|].
      intros j Hj. destruct (HR j) as [HR1 HR2]; [lia|]. destruct (C2 j) as [C3 C4]; [lia|].
      rewrite HR1, HR2, Rr, Mu by lia. rewrite Em, Er. split; auto. intros _. apply C4. lia.
    + pose proof (Hpf i Hfi) as X. rewrite X in *. destruct (Nat.leb_spec f i); [lia|]. split; auto.
      intros j Hj. destruct (HR j) as [HR1 HR2]; [lia|]. destruct (C2 j) as [C3 C4]; [lia|].
      rewrite HR1, HR2, Rr, Mu by lia. rewrite Em, Er, X. auto.
Qed.

Lemma fmove_ok z s o n : FInv z s -> legal z (OMove o n) ->
  exists z' s', fmove_row fo en_e z s o n = Some (z', s') /\ FInv z' s' /\ move_row z o n = Some z'.
Proof.
  intros HF HL. pose proof (F_inv _ _ HF) as HI. pose proof (F_dims _ _ HF) as HD.
  destruct (move_row_ok z o n HI HL) as [z' [ef [Ez S]]]. pose proof S as [HI' _].
  destruct (move_known z o n z' Ez) as [Fl Hk].
  destruct (move_row_exact z o n HI HL) as [z'' [Ez' [Hb _]]]. simpl in Ez'. assert (z'' = z') by congruence. subst z''.
  destruct HL as [Hl [Ho [Hn Hkn]]]. destruct (I_known _ HI) as [K1 [K2 K3]]. destruct (I_b _ HI) as [LB _].
  unfold fmove_row. rewrite Ez.
  destruct (Nat.ltb_spec n o) as [Hno|Hno].
  - specialize (Hkn Hno).
    assert (Hk' : nkr z' = nkr z) by (rewrite Hk; gs). clear Hk.
    destruct (invalidate_gso_rows_ok n (nkr z - n) n s) as [s1 [E1 [N1 [N2 [N3 [N4 [N5 [N6 N7]]]]]]]].
    { rewrite (D_vc _ _ HD). lia. }
    rewrite E1. cbn [obind].
    destruct (rotate_right_spec (fvc s1) n o) as [vc' [Evc Rvc]]. { rewrite N6, (D_vc _ _ HD). lia. }
    rewrite Evc. cbn [obind].
    destruct (rotate_right_dims f0 (gd z) (gd z) (fmu s1) n o) as [mu' [Emu [Dmu Hmu]]]. { rewrite N1. apply HD. } { lia. }
    rewrite Emu. cbn [obind].
    destruct (rotate_right_dims f0 (gd z) (gd z) (fr s1) n o) as [r' [Er [Dr Hr]]]. { rewrite N2. apply HD. } { lia. }
    rewrite Er. cbn [obind].
    assert (exists g', (if en_g z then Some (fgf s1) else rotate_gram_right (fgf s1) n o (nkr z)) = Some g' /\ dims (gd z) (gd z) g' /\
       (en_g z = false -> forall a b, a < nkr z -> b < nkr z -> so g' a b = so (fgf s) (rot_right_idx n o a) (rot_right_idx n o b))) as [g' [Eg [Dg Hg]]].
    { rewrite N3. destruct (en_g z).
      - exists (fgf s). split; auto. split; [apply HD|discriminate].
      - destruct (rotate_gram_right_spec (@None FT) (gd z) (gd z) (fgf s) n o (nkr z)) as [g' [A1 [A2 A3]]]; try apply HD; try lia.
        exists g'. auto. }
    rewrite Eg. cbn [obind].
    assert (exists b', (if en_g z then Some (fbf s1) else rotate_right_by_swap (fbf s1) n o) = Some b' /\ dims (gd z) (gc z) b' /\
       (en_g z = false -> forall a, a < gd z -> nth a b' [] = nth (rot_right_idx n o a) (fbf s) [])) as [b' [Ebf [Db Hbf]]].
    { rewrite N4. destruct (en_g z).
      - exists (fbf s). split; auto. split; [apply HD|discriminate].
      - destruct (rotate_right_dims f0 (gd z) (gc z) (fbf s) n o) as [b' [A1 [A2 A3]]]; try apply HD; try lia.
        exists b'. split; auto. split; auto. intros _ a Ha.
        destruct (rotate_right_spec (fbf s) n o) as [b2 [A4 A5]]. { destruct (D_bf _ _ HD). lia. }
        assert (b2 = b') by congruence. subst b2. destruct (D_bf _ _ HD) as [X _].
        apply reidx_nth; auto; rewrite X; auto. apply rot_right_lt; lia. }
    rewrite Ebf. cbn [obind].
    assert (exists e', (if en_e then rotate_right_by_swap (fre s1) n o else Some (fre s1)) = Some e' /\ length e' = gd z /\
       (en_e = true -> forall a, a < gd z -> nth a e' 0%Z = nth (rot_right_idx n o a) (fre s) 0%Z)) as [e' [Ee [De He]]].
    { rewrite N5. destruct en_e.
      - destruct (rotate_right_spec (fre s) n o) as [b2 [A4 A5]]. { rewrite (D_re _ _ HD). lia. }
        exists b2. split; auto. split; [destruct A5; rewrite <- (D_re _ _ HD); auto|].
        intros _ a Ha. apply reidx_nth; auto; rewrite (D_re _ _ HD); auto. apply rot_right_lt; lia.
      - exists (fre s). split; auto. split; [apply HD|discriminate]. }
    rewrite Ee. cbn [obind]. eexists; eexists. split; [reflexivity|]. split; auto.
    destruct (rotate_right_spec (gb z) n o) as [bb [A4 A5]]; [lia|].
    assert (Hrow : forall a, a < gd z -> nth a (gb z') [] = nth (rot_right_idx n o a) (gb z) []).
    { intros a Ha. rewrite Hb. rewrite (rotate_right_move (gb z) n o []) in A4 by lia. injection A4 as ->.
      apply reidx_nth; auto. rewrite LB. apply rot_right_lt; lia. }
    assert (Hgd : gd z' = gd z). { destruct S as [_ [_ [_ [X _]]]]. apply X. }
    apply (fmove_core z s z' s1 _ n (rot_right_idx n o)); cbn [fmu fr fgf fbf fre fvc]; auto; try (rewrite Hk'; auto; fail).
    + intros a Ha. apply rot_right_lt; lia.
    + intros a Ha. apply rot_right_lt; lia.
    + intros a Ha. unfold rot_right_idx. gs.
    + intros a Ha. unfold rot_right_idx. gs.
    + intros a Ha. rewrite N7. gs.
    + constructor; auto. cbn [fvc]. destruct Rvc as [X _]. rewrite <- (D_vc _ _ HD), <- N6. auto.
    + intros a Ha. apply reidx_nth; auto; rewrite N6, (D_vc _ _ HD); auto. apply rot_right_lt; lia.
  - destruct (Nat.ltb_spec o n) as [Hon|Hon].
    2:{ exists z, s. split; auto. split; auto. unfold move_row in Ez.
        destruct (Nat.ltb_spec n o); [lia|]. destruct (Nat.ltb_spec o n); [lia|]. auto. }
    destruct (invalidate_gso_rows_ok o (nkr z - o) o s) as [s1 [E1 [N1 [N2 [N3 [N4 [N5 [N6 N7]]]]]]]].
    { rewrite (D_vc _ _ HD). lia. }
    rewrite E1. cbn [obind].
    destruct (rotate_left_spec (fvc s1) o n) as [vc' [Evc Rvc]]. { rewrite N6, (D_vc _ _ HD). lia. }
    rewrite Evc. cbn [obind].
    destruct (rotate_left_dims f0 (gd z) (gd z) (fmu s1) o n) as [mu' [Emu [Dmu Hmu]]]. { rewrite N1. apply HD. } { lia. }
    rewrite Emu. cbn [obind].
    destruct (rotate_left_dims f0 (gd z) (gd z) (fr s1) o n) as [r' [Er [Dr Hr]]]. { rewrite N2. apply HD. } { lia. }
    rewrite Er. cbn [obind].
    assert (Hk2 : nkr z' <= nkr z) by (rewrite Hk; gs).
    assert (exists g', (if en_g z then Some (fgf s1) else if Datatypes.S o <? nkr z then rotate_gram_left (fgf s1) o (Nat.min n (nkr z - 1)) (nkr z) else Some (fgf s1)) = Some g' /\ dims (gd z) (gd z) g' /\
       (en_g z = false -> forall a b, a < nkr z' -> b < nkr z' -> so g' a b = so (fgf s) (rot_left_idx o n a) (rot_left_idx o n b))) as [g' [Eg [Dg Hg]]].
    { rewrite N3. destruct (en_g z).
      - exists (fgf s). split; auto. split; [apply HD|discriminate].
      - destruct (Nat.ltb_spec (Datatypes.S o) (nkr z)).
        + destruct (rotate_gram_left_spec (@None FT) (gd z) (gd z) (fgf s) o (Nat.min n (nkr z - 1)) (nkr z)) as [g' [A1 [A2 A3]]]; try apply HD; try lia.
          exists g'. split; auto. split; auto. intros _ a b Ha Hb'. rewrite A3 by lia.
          rewrite Hk in Ha, Hb'. f_equal; unfold rot_left_idx; revert Ha Hb'; bdestr; intros; lia.
        + exists (fgf s). split; auto. split; [apply HD|]. intros _ a b Ha Hb'. rewrite Hk in Ha, Hb'.
          f_equal; unfold rot_left_idx; revert Ha Hb'; bdestr; intros; lia. }
    rewrite Eg. cbn [obind].
    assert (exists b', (if en_g z then Some (fbf s1) else rotate_left_by_swap (fbf s1) o n) = Some b' /\ dims (gd z) (gc z) b' /\
       (en_g z = false -> forall a, a < gd z -> nth a b' [] = nth (rot_left_idx o n a) (fbf s) [])) as [b' [Ebf [Db Hbf]]].
    { rewrite N4. destruct (en_g z).
      - exists (fbf s). split; auto. split; [apply HD|discriminate].
      - destruct (rotate_left_dims f0 (gd z) (gc z) (fbf s) o n) as [b' [A1 [A2 A3]]]; try apply HD; try lia.
        exists b'. split; auto. split; auto. intros _ a Ha.
        destruct (rotate_left_spec (fbf s) o n) as [b2 [A4 A5]]. { destruct (D_bf _ _ HD). lia. }
        assert (b2 = b') by congruence. subst b2. destruct (D_bf _ _ HD) as [X _].
        apply reidx_nth; auto; rewrite X; auto. apply rot_left_lt; lia. }
    rewrite Ebf. cbn [obind].
    assert (exists e', (if en_e then rotate_left_by_swap (fre s1) o n else Some (fre s1)) = Some e' /\ length e' = gd z /\
       (en_e = true -> forall a, a < gd z -> nth a e' 0%Z = nth (rot_left_idx o n a) (fre s) 0%Z)) as [e' [Ee [De He]]].
    { rewrite N5. destruct en_e.
      - destruct (rotate_left_spec (fre s) o n) as [b2 [A4 A5]]. { rewrite (D_re _ _ HD). lia. }
        exists b2. split; auto. split; [destruct A5; rewrite <- (D_re _ _ HD); auto|].
        intros _ a Ha. apply reidx_nth; auto; rewrite (D_re _ _ HD); auto. apply rot_left_lt; lia.
      - exists (fre s). split; auto. split; [apply HD|discriminate]. }
    rewrite Ee. cbn [obind]. eexists; eexists. split; [reflexivity|]. split; auto.
    destruct (rotate_left_spec (gb z) o n) as [bb [A4 A5]]; [lia|].
    assert (Hrow : forall a, a < gd z -> nth a (gb z') [] = nth (rot_left_idx o n a) (gb z) []).
    { intros a Ha. rewrite Hb. rewrite (rotate_left_move (gb z) n o []) in A4 by lia. injection A4 as ->.
      apply reidx_nth; auto. rewrite LB. apply rot_left_lt; lia. }
    assert (Hgd : gd z' = gd z). { destruct S as [_ [_ [_ [X _]]]]. apply X. }
    apply (fmove_core z s z' s1 _ o (rot_left_idx o n)); cbn [fmu fr fgf fbf fre fvc]; auto.
    + intros a Ha. apply rot_left_lt; lia.
    + intros a Ha. rewrite Hk in Ha. unfold rot_left_idx. revert Ha. bdestr; intros; lia.
    + intros a Ha. unfold rot_left_idx. gs.
    + intros a Ha. unfold rot_left_idx. gs.
    + intros a Ha. rewrite N7. gs.
    + constructor; auto. cbn [fvc]. destruct Rvc as [X _]. rewrite <- (D_vc _ _ HD), <- N6. auto.
    + intros a Ha. apply reidx_nth; auto; rewrite N6, (D_vc _ _ HD); auto. apply rot_left_lt; lia.
Qed.

(** ** histories *)
Lemma fstep_ok z s o : FInv z s -> flegal fo (z, s) o ->
  exists z' s', fstep fo en_e (z, s) o = Some (z', s') /\ FInv z' s' /\ flags_eq z z'.
Proof.
  intros HF HL. destruct o; cbn [fstep].
  - destruct HL as [H1 [H2 H3]].
    destruct (grun_rows first last l z (F_inv _ _ HF) H2 H3) as [z' [E [HI' [Fl [K [D R]]]]]].
    rewrite E. cbn [obind].
    destruct (row_op_end_ok z z' s first last) as [s' [E' HF']]; auto.
    rewrite E'. cbn [obind]. eauto.
  - destruct (fmove_ok z s old_r new_r HF HL) as [z' [s' [E [HF' Ez]]]].
    destruct (move_known _ _ _ _ Ez) as [Fl _]. eauto.
  - destruct (update_gso_row_ok z s i last_j HF HL) as [z' [s' [ok [E [HF' [Fl _]]]]]]. rewrite E. cbn [obind fst]. eauto.
  - destruct (set_r_ok z s i j x HF HL) as [s' [E HF']]. rewrite E. cbn [obind]. exists z, s'. repeat (split; auto).
  - destruct (fdiscover_ok z s HF HL) as [z' [s' [E [HF' [Ez _]]]]]. destruct (discover_known _ _ Ez) as [_ [Fl _]]. eauto.
  - exists (lock_cols z), s. split; auto. split; [apply lock_FInv; auto|repeat split].
  - exists (unlock_cols z), s. split; auto. split; [apply unlock_FInv; auto|repeat split].
Qed.

Lemma frun_ok l : forall z s, FInv z s -> flegal_run fo en_e (z, s) l ->
  exists z' s', frun fo en_e (z, s) l = Some (z', s') /\ FInv z' s' /\ flags_eq z z'.
Proof.
  induction l as [|o l IH]; intros z s HF HL; cbn [frun].
  - exists z, s. repeat (split; auto).
  - destruct HL as [H1 H2]. destruct (fstep_ok z s o HF H1) as [z1 [s1 [E [HF1 Fl]]]].
    rewrite E in *. cbn [obind]. destruct (IH z1 s1 HF1 H2) as [z' [s' [E' [HF' Fl']]]].
    exists z', s'. split; auto. split; auto.
    destruct Fl as [? [? [? [? ?]]]]; destruct Fl' as [? [? [? [? ?]]]]; repeat split; congruence.
Qed.

Lemma coeff_reference z s i j : FInv z s -> (en_e = true -> en_g z = false) -> valid_coeff fo (z, s) i j ->
  get_r_exp fo en_e (z, s) i j =
    Some (refR fo (Gr z) i j, if en_e then (encexp (nth i (gb z) []) + encexp (nth j (gb z) []))%Z else 0%Z) /\
  (j < i -> get_mu_exp fo en_e (z, s) i j =
    Some (refM fo (Gr z) i j, if en_e then (encexp (nth i (gb z) []) - encexp (nth j (gb z) []))%Z else 0%Z)).
Proof.
  intros HF HE [Hi [Hj Hv]]. simpl in Hi, Hv.
  pose proof (F_dims _ _ HF) as D. destruct (I_known _ (F_inv _ _ HF)) as [K1 [K2 K3]].
  destruct (F_co _ _ HF i Hi) as [_ C]. destruct (C j Hv) as [C1 C2].
  pose proof (F_bf _ _ HF) as HB.
  unfold get_r_exp, get_mu_exp.
  rewrite (mget_some f0 (gd z) (gd z)) by (try apply D; lia). cbn [obind].
  rewrite (mget_some f0 (gd z) (gd z)) by (try apply D; lia). cbn [obind].
  destruct en_e eqn:EE.
  - pose proof (D_re _ _ D). rewrite (nth_error_nth' (fre s) 0%Z) by lia. cbn [obind].
    rewrite (nth_error_nth' (fre s) 0%Z) by lia. cbn [obind].
    destruct (HB (HE eq_refl) i) as [_ X1]; [lia|]. destruct (HB (HE eq_refl) j) as [_ X2]; [lia|].
    specialize (X1 EE). specialize (X2 EE). rewrite EE in X1, X2. rewrite C1, X1, X2. split; [reflexivity|].
    intros Hji. rewrite C2 by auto. reflexivity.
  - rewrite C1. split; [reflexivity|]. intros Hji. rewrite C2 by auto. reflexivity.
Qed.
End P.
