(** Specification of rotations and moves as list surgery, and proofs that the
    swap-based code implements it. *)
From Coq Require Import List ZArith Lia Arith Bool.
From Verif Require Import Util LatticeSpec NumVectModel NumVectProofs MatrixModel MatrixProofs GsoModel GsoProofs GsoHistory.
Import ListNotations.
Local Open Scope nat_scope.

(** The part of l from index a (included) to b (excluded). *)
Definition slice {A} (a b : nat) (l : list A) : list A := firstn (b - a) (skipn a l).
(** std::rotate on [first, last] with the element at middle moved to first. *)
Definition cyc {A} (f m t : nat) (l : list A) : list A :=
  firstn f l ++ slice m (S t) l ++ slice f m l ++ skipn (S t) l.
Definition remove_at {A} (i : nat) (l : list A) : list A := firstn i l ++ skipn (S i) l.
Definition insert_at {A} (i : nat) (x : A) (l : list A) : list A := firstn i l ++ x :: skipn i l.

Lemma nth_error_ext {A} (l1 l2 : list A) :
  length l1 = length l2 -> (forall k, k < length l1 -> nth_error l1 k = nth_error l2 k) -> l1 = l2.
Proof.
  revert l2. induction l1 as [|a l1 IH]; intros [|b l2] HL H; simpl in *; try lia; auto.
  pose proof (H 0 ltac:(lia)) as H0. simpl in H0. injection H0 as ->. f_equal. apply IH; [lia|].
  intros k Hk. apply (H (S k)). lia.
Qed.

Lemma nth_error_firstn_lt {A} n : forall (l : list A) k, k < n -> nth_error (firstn n l) k = nth_error l k.
Proof.
  induction n; intros l k Hk; [lia|]. destruct l; simpl; auto. destruct k; simpl; auto. apply IHn. lia.
Qed.
Lemma nth_error_skipn_add {A} c : forall (v : list A) n, nth_error (skipn c v) n = nth_error v (c + n).
Proof. induction c; intros v n; simpl; auto. destruct v; simpl; auto. destruct n; auto. Qed.

Lemma cyc_length {A} f m t (l : list A) : f <= m -> m <= S t -> t < length l -> length (cyc f m t l) = length l.
Proof. intros. unfold cyc, slice. rewrite !app_length, !firstn_length, !skipn_length. lia. Qed.

Lemma cyc_reidx {A} f m t (l : list A) : f <= m -> m <= S t -> t < length l ->
  reidx (rot_idx f m t) l (cyc f m t l).
Proof.
  intros H1 H2 H3. split; [apply cyc_length; auto|]. intros k Hk. unfold cyc, slice.
  destruct (Nat.lt_ge_cases k f).
  - rewrite nth_error_app1 by (rewrite firstn_length; lia).
    rewrite nth_error_firstn_lt by auto. f_equal. unfold rot_idx. bdestr.
  - rewrite nth_error_app2 by (rewrite firstn_length; lia). rewrite firstn_length.
    replace (Nat.min f (length l)) with f by lia.
    destruct (Nat.lt_ge_cases (k - f) (S t - m)).
    + rewrite nth_error_app1 by (rewrite firstn_length, skipn_length; lia).
      rewrite nth_error_firstn_lt by auto. rewrite nth_error_skipn_add. f_equal. unfold rot_idx. bdestr.
    + rewrite nth_error_app2 by (rewrite firstn_length, skipn_length; lia).
      rewrite firstn_length, skipn_length. replace (Nat.min (S t - m) (length l - m)) with (S t - m) by lia.
      destruct (Nat.lt_ge_cases (k - f - (S t - m)) (m - f)).
      * rewrite nth_error_app1 by (rewrite firstn_length, skipn_length; lia).
        rewrite nth_error_firstn_lt by auto. rewrite nth_error_skipn_add. f_equal. unfold rot_idx. bdestr.
      * rewrite nth_error_app2 by (rewrite firstn_length, skipn_length; lia).
        rewrite firstn_length, skipn_length. rewrite nth_error_skipn_add. f_equal. unfold rot_idx. bdestr.
Qed.

Lemma reidx_fun {A} p p' (l l1 l2 : list A) :
  (forall k, k < length l -> p k = p' k) -> reidx p l l1 -> reidx p' l l2 -> l1 = l2.
Proof.
  intros HP [L1 H1] [L2 H2]. apply nth_error_ext; [congruence|]. intros k Hk.
  rewrite H1, H2 by lia. rewrite HP by lia. auto.
Qed.

Lemma rotate_cyc {A} (v : list A) first middle last :
  first <= middle -> middle <= S last -> last < length v ->
  rotate_by_swap v first middle last = Some (cyc first middle last v).
Proof.
  intros H1 H2 H3. destruct (rotate_spec v first middle last) as [v' [E R]]; auto. rewrite E. f_equal.
  eapply reidx_fun; [|exact R|apply cyc_reidx; auto]. auto.
Qed.

Lemma rotate_left_cyc {A} (v : list A) first last :
  first <= last -> last < length v ->
  rotate_left_by_swap v first last = Some (cyc first (S first) last v).
Proof.
  intros H1 H2. destruct (rotate_left_spec v first last) as [v' [E R]]; auto. rewrite E. f_equal.
  eapply reidx_fun; [|exact R|apply cyc_reidx; lia]. intros k Hk. unfold rot_left_idx, rot_idx. bdestr.
Qed.

Lemma rotate_right_cyc {A} (v : list A) first last :
  first <= last -> last < length v ->
  rotate_right_by_swap v first last = Some (cyc first last last v).
Proof.
  intros H1 H2. destruct (rotate_right_spec v first last) as [v' [E R]]; auto. rewrite E. f_equal.
  eapply reidx_fun; [|exact R|apply cyc_reidx; lia]. intros k Hk. unfold rot_right_idx, rot_idx. bdestr.
Qed.

Lemma insert_remove_reidx {A} (l : list A) o n d (p : nat -> nat) :
  o < length l -> n < length l ->
  (forall k, k < length l -> p k =
     if k =? n then o else (let k' := if k <? n then k else k - 1 in if k' <? o then k' else S k')) ->
  reidx p l (insert_at n (nth o l d) (remove_at o l)).
Proof.
  intros Ho Hn Hp.
  assert (LR : length (remove_at o l) = length l - 1).
  { unfold remove_at. rewrite app_length, firstn_length, skipn_length. lia. }
  assert (NR : forall k, nth_error (remove_at o l) k = nth_error l (if k <? o then k else S k)).
  { intros k. unfold remove_at. destruct (Nat.ltb_spec k o).
    - rewrite nth_error_app1 by (rewrite firstn_length; lia). apply nth_error_firstn_lt; auto.
    - rewrite nth_error_app2 by (rewrite firstn_length; lia). rewrite firstn_length, nth_error_skipn_add.
      f_equal. lia. }
  split.
  - unfold insert_at. rewrite app_length. cbn [length]. rewrite firstn_length, skipn_length, LR. lia.
  - intros k Hk. rewrite Hp by auto. unfold insert_at. destruct (Nat.ltb_spec k n).
    + rewrite nth_error_app1 by (rewrite firstn_length, LR; lia). rewrite nth_error_firstn_lt by auto. rewrite NR.
      destruct (Nat.eqb_spec k n); [lia|]. auto.
    + rewrite nth_error_app2 by (rewrite firstn_length, LR; lia). rewrite firstn_length, LR.
      replace (Nat.min n (length l - 1)) with n by lia.
      destruct (Nat.eqb_spec k n).
      * subst. rewrite Nat.sub_diag. simpl. symmetry. apply nth_error_nth'. auto.
      * destruct (k - n) eqn:E; [lia|]. simpl. rewrite nth_error_skipn_add, NR.
        replace (n + n1) with (k - 1) by lia. auto.
Qed.

Lemma rotate_right_move {A} (l : list A) n o d : n <= o -> o < length l ->
  rotate_right_by_swap l n o = Some (insert_at n (nth o l d) (remove_at o l)).
Proof.
  intros H1 H2. destruct (rotate_right_spec l n o) as [v' [E R]]; auto. rewrite E. f_equal.
  eapply reidx_fun; [|exact R|apply insert_remove_reidx with (p := rot_right_idx n o); try lia].
  - auto.
  - intros k Hk. unfold rot_right_idx. cbv zeta. bdestr.
Qed.
Lemma rotate_left_move {A} (l : list A) n o d : o <= n -> n < length l ->
  rotate_left_by_swap l o n = Some (insert_at n (nth o l d) (remove_at o l)).
Proof.
  intros H1 H2. destruct (rotate_left_spec l o n) as [v' [E R]]; auto. rewrite E. f_equal.
  eapply reidx_fun; [|exact R|apply insert_remove_reidx with (p := rot_left_idx o n); try lia].
  - auto.
  - intros k Hk. unfold rot_left_idx. cbv zeta. bdestr.
Qed.
Lemma insert_remove_same {A} (l : list A) n d : n < length l -> insert_at n (nth n l d) (remove_at n l) = l.
Proof.
  intros H. pose proof (rotate_left_move l n n d (le_n _) H) as E. unfold rotate_left_by_swap in E.
  rewrite Nat.sub_diag in E. simpl in E. congruence.
Qed.

Lemma move_row_exact z o n : Inv z -> legal z (OMove o n) ->
  exists z', gstep z (OMove o n) = Some z' /\
     gb z' = insert_at n (nth o (gb z) []) (remove_at o (gb z)) /\
     (en_t z = true -> gu z' = insert_at n (nth o (gu z) []) (remove_at o (gu z))) /\
     (en_t z = true -> en_i z = true -> gui z' = insert_at n (nth o (gui z) []) (remove_at o (gui z))).
Proof.
  intros HI HL. destruct (move_row_ok z o n HI HL) as [z' [e [E S]]]. exists z'. split; auto.
  destruct HL as [Hl [Ho [Hn Hk]]]. destruct (I_b _ HI) as [LB _].
  assert (LU : en_t z = true -> length (gu z) = gd z) by (intros ET; destruct (I_u _ HI ET) as [cu [X _]]; auto).
  assert (LUI : en_t z = true -> en_i z = true -> length (gui z) = gd z)
    by (intros ET EI; destruct (I_ui _ HI ET EI) as [cu [X _]]; auto).
  clear S. revert E. unfold move_row.
  destruct (Nat.ltb_spec n o).
  - rewrite (rotate_right_move (gb z) n o []) by lia. simpl.
    destruct (en_t z) eqn:ET.
    + rewrite (rotate_right_move (gu z) n o []) by (rewrite ?LU; auto; lia). simpl.
      destruct (en_i z) eqn:EI.
      * rewrite (rotate_right_move (gui z) n o []) by (rewrite ?LUI; auto; lia). simpl.
        destruct (en_g z); [|intros E; injection E as <-; simpl; auto].
        destruct (rotate_gram_right _ _ _ _); simpl; [|discriminate]. intros E; injection E as <-; simpl; auto.
      * simpl. destruct (en_g z); [|intros E; injection E as <-; simpl; repeat split; auto; discriminate].
        destruct (rotate_gram_right _ _ _ _); simpl; [|discriminate]. intros E; injection E as <-; simpl; repeat split; auto; discriminate.
    + simpl. destruct (en_g z); [|intros E; injection E as <-; simpl; repeat split; auto; discriminate].
      destruct (rotate_gram_right _ _ _ _); simpl; [|discriminate]. intros E; injection E as <-; simpl; repeat split; auto; discriminate.
  - destruct (Nat.ltb_spec o n).
    2:{ intros E. injection E as <-. assert (o = n) by lia. subst.
        repeat split; intros; symmetry; apply insert_remove_same; rewrite ?LU, ?LUI; auto; lia. }
    rewrite (rotate_left_move (gb z) n o []) by lia. simpl.
    set (bb := insert_at n (nth o (gb z) []) (remove_at o (gb z))).
    assert (forall z2 : gz, gb z2 = bb ->
      obind (if en_g z then if S o <? nkr z then
         g' <- rotate_gram_left (gg z) o (Nat.min n (nkr z - 1)) (nkr z);; Some (set_g z2 g')
         else Some z2 else Some z2)
       (fun z3 => if nkr z <=? n then
          ir1 <- rotate_left_by_swap (irs z) o n;;
          (if o <? nkr z then
           row <- nth_error bb n;;
           Some (set_known z3 (nkr z - 1) (nkr z - 1) (nkc z) (locked z) (upd ir1 n (Nat.max (size_nz row) 1)))
           else Some (set_known z3 (nkr z) (nsr z) (nkc z) (locked z) ir1)) else Some z3) = Some z' ->
       gb z' = bb /\ gu z' = gu z2 /\ gui z' = gui z2) as HH.
    { intros z2 Hb.
      destruct (if en_g z then _ else _) as [z3|] eqn:E3; simpl; [|discriminate].
      assert (gb z3 = bb /\ gu z3 = gu z2 /\ gui z3 = gui z2) as [B1 [B2 B3]].
      { destruct (en_g z); [|injection E3 as <-; auto]. destruct (S o <? nkr z); [|injection E3 as <-; auto].
        destruct (rotate_gram_left _ _ _ _); simpl in E3; [|discriminate]. injection E3 as <-; auto. }
      destruct (nkr z <=? n).
      - destruct (rotate_left_by_swap (irs z) o n); simpl; [|discriminate].
        destruct (o <? nkr z).
        + destruct (nth_error bb n); simpl; [|discriminate]. intros E; injection E as <-; simpl; auto.
        + intros E; injection E as <-; simpl; auto.
      - intros E; injection E as <-; simpl; auto. }
    destruct (en_t z) eqn:ET.
    + rewrite (rotate_left_move (gu z) n o []) by (rewrite ?LU; auto; lia). simpl.
      destruct (en_i z) eqn:EI.
      * rewrite (rotate_left_move (gui z) n o []) by (rewrite ?LUI; auto; lia). simpl.
        intros E. apply HH in E; simpl; auto. simpl in E. destruct E as [? [? ?]]. auto.
      * intros E. apply HH in E; simpl; auto. simpl in E. destruct E as [? [? ?]]. repeat split; auto; discriminate.
    + intros E. apply HH in E; simpl; auto. simpl in E. destruct E as [? [? ?]]. repeat split; auto; discriminate.
Qed.

Lemma oswap_upd {A} (l : list A) i j d : i < length l -> j < length l ->
  oswap l i j = Some (upd (upd l i (nth j l d)) j (nth i l d)).
Proof.
  intros Hi Hj. unfold oswap. rewrite (nth_error_nth' l d Hi), (nth_error_nth' l d Hj). auto.
Qed.

Lemma row_swap_exact z i j : Inv z -> legal z (OSwap i j) ->
  exists z', gstep z (OSwap i j) = Some z' /\
     gb z' = upd (upd (gb z) i (nth j (gb z) [])) j (nth i (gb z) []) /\
     (en_t z = true -> gu z' = upd (upd (gu z) i (nth j (gu z) [])) j (nth i (gu z) [])).
Proof.
  intros HI HL. destruct (row_swap_ok z i j HI HL) as [z' [E S]]. exists z'. split; auto.
  destruct HL as [Hij [Hi Hl]]. pose proof (I_known _ HI) as HK. destruct (I_b _ HI) as [LB _].
  clear S. revert E. unfold row_swap.
  rewrite (oswap_upd (gb z) i j []) by lia. simpl.
  destruct (en_t z) eqn:ET.
  - destruct (I_u _ HI ET) as [cu [LU _]].
    rewrite (oswap_upd (gu z) i j []) by lia. simpl.
    destruct (en_g z); [|intros E; injection E as <-; simpl; auto].
    destruct (j <? i); [discriminate|].
    destruct (ofor (seq 0 i) _ _); simpl; [|discriminate].
    destruct (ofor (seq (i + 1) _) _ _); simpl; [|discriminate].
    destruct (ofor (seq (j + 1) _) _ _); simpl; [|discriminate].
    destruct (mswap _ _ _ _ _); simpl; [|discriminate]. intros E; injection E as <-; simpl; auto.
  - simpl. destruct (en_g z); [|intros E; injection E as <-; simpl; split; auto; discriminate].
    destruct (j <? i); [discriminate|].
    destruct (ofor (seq 0 i) _ _); simpl; [|discriminate].
    destruct (ofor (seq (i + 1) _) _ _); simpl; [|discriminate].
    destruct (ofor (seq (j + 1) _) _ _); simpl; [|discriminate].
    destruct (mswap _ _ _ _ _); simpl; [|discriminate]. intros E; injection E as <-; simpl; split; auto; discriminate.
Qed.
