(** Theorems about apply_transform of the GSO objects (property C85). *)
From Coq Require Import List ZArith Lia Arith Bool.
From Verif Require Import Util LatticeSpec NumVectModel NumVectProofs MatrixModel MatrixProofs
  GsoModel GsoProofs GsoHistory GsoFModel GsoFSpec GsoFProofs GramModel GsoRowsModel GsoRowsProofs PropGsoRows GsoTransformModel QcUtil GsoQ.
Import ListNotations.
Local Open Scope nat_scope.

(** *** Specification *)
(** the integer an entry stands for: exact unless row_op_force_long cuts it to a long *)
Definition mval (fl : bool) (m : mult) : Z :=
  let '(lx, e, zx, e2) := m in
  if e =? 0 then lx else if fl then (lx * 2 ^ Z.of_nat e)%Z else (zx * 2 ^ Z.of_nat e2)%Z.
(** entry (a, k) of the matrix M after rows tgt .. tgt+n-1 became combinations of the rows from src on *)
Definition transformed (fl : bool) (T : list (list mult)) (c src tgt : nat) (M : list (list Z)) (a k : nat) : Z :=
  if (tgt <=? a) && (a <? tgt + length T)
  then zsum c (fun j => (mval fl (nth j (nth (a - tgt)%nat T []) (0%Z, 0%nat, 0%Z, 0%nat)) * ent M (src + j)%nat k)%Z)
  else ent M a k.

Section P.
Variable fo : fops.
Variable en_e : bool.
Variable junk : F fo.

(** a usable object: storage consistent, all rows discovered, columns not locked, no inverse
    transform, integer Gram matrix (if kept) the one of the basis *)
Record good (x : gr fo) : Prop := {
  g_w : rwf fo x;
  g_k : nkr (rz x) = gd (rz x);
  g_s : nsr (rz x) = gd (rz x);
  g_i : en_i (rz x) = false;
  g_u : en_t (rz x) = true -> dims (gd (rz x)) (rucols x) (gu (rz x));
  g_tail : forall i k, i < gd (rz x) -> nkc (rz x) <= k -> ent (gb (rz x)) i k = 0%Z;
  g_g : en_g (rz x) = true -> forall i j, i < gd (rz x) -> j < gd (rz x) ->
    sg (gg (rz x)) i j = inner (gc (rz x)) (nth i (gb (rz x)) []) (nth j (gb (rz x)) [])
}.

(** *** What create_rows leaves unchanged *)
Lemma ofor_keep {S} (R : S -> S -> Prop) (f : nat -> S -> option S) : (forall s, R s s) -> (forall a b c, R a b -> R b c -> R a c) ->
  forall l s s', (forall k s s', In k l -> f k s = Some s' -> R s s') -> ofor l f s = Some s' -> R s s'.
Proof.
  intros HR HT. induction l as [|k l IH]; intros s s' H E; cbn [ofor] in E; [injection E as <-; apply HR|].
  destruct (f k s) as [s1|] eqn:E1; [|discriminate E]. cbn [obind] in E.
  apply (HT s s1 s'); [apply (H k); [now left|exact E1]|]. apply IH; [|exact E]. intros k' a b Hk. apply H. now right.
Qed.

(** members kept, integer Gram entries of the first d0 rows kept *)
Record kept (d0 : nat) (x x' : gr fo) : Prop := {
  k_b : gb (rz x') = gb (rz x); k_c : gc (rz x') = gc (rz x); k_u : gu (rz x') = gu (rz x); k_ui : gui (rz x') = gui (rz x);
  k_eg : en_g (rz x') = en_g (rz x); k_et : en_t (rz x') = en_t (rz x); k_ei : en_i (rz x') = en_i (rz x);
  k_fl : force_long (rz x') = force_long (rz x); k_l : locked (rz x') = locked (rz x); k_uc : rucols x' = rucols x;
  k_kc : nkc (rz x) <= nkc (rz x'); k_kr : nkr (rz x) <= nkr (rz x');
  k_s : locked (rz x) = false -> nsr (rz x) = nkr (rz x) -> nsr (rz x') = nkr (rz x');
  k_g : forall a b, a < d0 -> b < d0 -> gent 0%Z (gg (rz x')) a b = gent 0%Z (gg (rz x)) a b }.
Lemma kept_refl d0 x : kept d0 x x.
Proof. constructor; auto. Qed.
Lemma kept_trans d0 x y z : kept d0 x y -> kept d0 y z -> kept d0 x z.
Proof. intros [] []. constructor; try congruence; try lia; [intros; rewrite k_l0 in *; auto|intros; rewrite k_g1, k_g0 by assumption; reflexivity]. Qed.

Lemma init_kept d0 i x x' : init_row fo en_e i x = Some x' -> kept d0 x x' /\ ralloc x' = ralloc x.
Proof.
  unfold init_row. destruct (nth_error (gb (rz x)) i); cbn [obind]; [|discriminate]. destruct (nth_error (irs (rz x)) i); cbn [obind]; [|discriminate].
  destruct (en_g (rz x)).
  - intros E. injection E as <-. split; [constructor; auto|reflexivity].
  - destruct (nth_error (fbf (rs x)) i); cbn [obind]; [|discriminate]. destruct (update_bf _ _ _ _ _); cbn [obind]; [|discriminate].
    intros E. injection E as <-. split; [constructor; auto|reflexivity].
Qed.
Lemma realloc_kept x : kept (ralloc x) x (realloc fo junk x) /\ ralloc (realloc fo junk x) = Nat.max (ralloc x) (gd (rz x)).
Proof.
  unfold realloc. cbv zeta. destruct (Nat.ltb_spec (ralloc x) (gd (rz x))).
  - split; [|cbn; lia]. destruct (en_g (rz x)) eqn:E; constructor; cbn; auto.
    intros a b Ha Hb. unfold gent, mat_grow. rewrite nth_indep with (d' := map (fun j => nth j (nth 0 (gg (rz x)) []) 0%Z) (seq 0 (gd (rz x)))) by (rewrite map_length, seq_length; lia).
    rewrite (map_nth (fun i => map (fun j => nth j (nth i (gg (rz x)) []) 0%Z) (seq 0 (gd (rz x))))), seq_nth by lia.
    rewrite nth_indep with (d' := nth 0 (nth (0 + a) (gg (rz x)) []) 0%Z) by (rewrite map_length, seq_length; lia).
    rewrite (map_nth (fun j => nth j (nth (0 + a) (gg (rz x)) []) 0%Z)), seq_nth by lia. reflexivity.
  - split; [apply kept_refl|lia].
Qed.
Lemma mset_other (M M' : list (list Z)) i j v a b : mset M i j v = Some M' -> a <> i -> gent 0%Z M' a b = gent 0%Z M a b.
Proof.
  unfold mset. destruct (nth_error M i); cbn [obind]; [|discriminate]. destruct (nth_error l j); cbn [obind]; [|discriminate].
  intros E Ha. injection E as <-. unfold gent. now rewrite nth_upd_neq.
Qed.
Lemma discover_kept d0 x x' : d0 <= nkr (rz x) -> rdiscover fo x = Some x' -> kept d0 x x' /\ ralloc x' = ralloc x.
Proof.
  intros Hd. unfold rdiscover, fdiscover_row, discover_row. cbv zeta.
  destruct (nth_error (irs (rz x)) (nkr (rz x))) as [w|]; cbn [obind]; [|discriminate].
  destruct (en_g (rz x)) eqn:EG.
  - match goal with |- context [ofor ?l ?f (gg (rz x))] => destruct (ofor l f (gg (rz x))) as [g'|] eqn:E end; cbn [obind]; [|discriminate].
    destruct (nth_error (fvc (rs x)) (nkr (rz x))); cbn [obind]; [|discriminate]. intros H. injection H as <-.
    split; [|reflexivity]. constructor; cbn; auto; try (destruct (locked (rz x)); try discriminate; intros; lia).
    intros a b Ha Hb.
    apply (ofor_keep (fun g g' : list (list Z) => gent 0%Z g' a b = gent 0%Z g a b)) in E; [exact E|reflexivity|intros; congruence|].
    intros k s s' _ H. destruct (nth_error (gb (rz x)) (nkr (rz x))); cbn [obind] in H; [|discriminate H]. destruct (nth_error (gb (rz x)) k); cbn [obind] in H; [|discriminate H].
    destruct (nv_dot_product _ _ _ _); cbn [obind] in H; [|discriminate H]. apply (mset_other _ _ _ _ _ a b) in H; [exact H|lia].
  - destruct (nth_error (gb (rz x)) (nkr (rz x))); cbn [obind]; [|discriminate].
    destruct (invalidate_gram_row fo (rs x) (nkr (rz x))); cbn [obind]; [|discriminate].
    destruct (nth_error (fvc f) (nkr (rz x))); cbn [obind]; [|discriminate]. intros H. injection H as <-.
    split; [|reflexivity]. constructor; cbn; auto; try (destruct (locked (rz x)); try discriminate; intros; lia).
Qed.
Lemma discover_all_kept d0 n : forall x x', d0 <= nkr (rz x) -> discover_all fo n x = Some x' -> kept d0 x x' /\ ralloc x' = ralloc x.
Proof.
  induction n; intros x x' Hd; cbn [discover_all]; destruct (nkr (rz x) <? gd (rz x)); try discriminate; try (intros H; injection H as <-; split; [apply kept_refl|reflexivity]).
  destruct (rdiscover fo x) as [x1|] eqn:E; cbn [obind]; [|discriminate]. intros H.
  destruct (discover_kept d0 x x1 Hd E) as [K A]. destruct (IHn x1 x') as [K' A']; [pose proof (k_kr _ _ _ K); lia|exact H|].
  split; [now apply kept_trans with x1|congruence].
Qed.
Lemma create_kept x n x' : good x -> create_rows fo en_e junk x n = Some x' ->
  exists y, kept (gd (rz x)) y x' /\ ralloc x' = Nat.max (ralloc x) (gd (rz x) + n) /\
    gb (rz y) = gb (rz x) ++ repeat (repeat 0%Z (gc (rz x))) n /\
    gu (rz y) = (if en_t (rz x) then gu (rz x) ++ repeat (repeat 0%Z (rucols x)) n else gu (rz x)) /\
    gc (rz y) = gc (rz x) /\ en_g (rz y) = en_g (rz x) /\ en_t (rz y) = en_t (rz x) /\ en_i (rz y) = en_i (rz x) /\
    force_long (rz y) = force_long (rz x) /\ locked (rz y) = locked (rz x) /\ rucols y = rucols x /\ nkc (rz y) = nkc (rz x) /\
    nkr (rz y) = nkr (rz x) /\ nsr (rz y) = nsr (rz x) /\ gg (rz y) = gg (rz x).
Proof.
  intros HG. unfold create_rows. cbv zeta. unfold size_increased. cbn [rs].
  set (y := mkgr (if en_t (rz x) then _ else _) (rs x) (ralloc x) (rucols x)).
  assert (Gy : gd (rz y) = gd (rz x) + n).
  { unfold gd, y. destruct (en_t (rz x)); cbn; rewrite app_length, repeat_length; reflexivity. }
  destruct (realloc_kept y) as [K1 A1]. rewrite Gy in A1.
  destruct (ofor _ (init_row fo en_e) (realloc fo junk y)) as [x2|] eqn:E2; cbn [obind]; [|discriminate].
  pose proof (ofor_keep (fun a b => kept (gd (rz x)) a b /\ ralloc b = ralloc a) (init_row fo en_e)
    (fun s => conj (kept_refl _ s) eq_refl) (fun a b c H H' => conj (kept_trans _ _ _ _ (proj1 H) (proj1 H')) (eq_trans (proj2 H') (proj2 H)))
    _ _ _ (fun k s s' _ H => init_kept (gd (rz x)) k s s' H) E2) as [K2 A2].
  assert (Hal : gd (rz x) <= ralloc x) by (apply (GsoRowsProofs.W_al _ _ _ (R_w _ _ (g_w _ HG)))).
  assert (K12 : kept (gd (rz x)) y x2).
  { apply kept_trans with (realloc fo junk y); [|exact K2]. destruct K1. constructor; auto. intros a b Ha Hb. apply k_g0; cbn [ralloc y]; unfold y; cbn [ralloc]; lia. }
  assert (Ny : nkr (rz y) = nkr (rz x)) by (unfold y; destruct (en_t (rz x)); reflexivity).
  intros H. exists y.
  assert (K3 : kept (gd (rz x)) x2 x' /\ ralloc x' = ralloc x2).
  { destruct (nkr (rz x2) =? gd (rz x)).
    - apply (discover_all_kept (gd (rz x))) in H; [exact H|]. pose proof (k_kr _ _ _ K12). rewrite Ny, (g_k _ HG) in *. lia.
    - injection H as <-. split; [apply kept_refl|reflexivity]. }
  destruct K3 as [K3 A3]. split; [now apply kept_trans with x2|]. split; [rewrite A3, A2, A1; unfold y; reflexivity|].
  unfold y. destruct (en_t (rz x)) eqn:Et; cbn; rewrite ?Et; auto 20.
Qed.

(** the object after create_rows satisfies the invariant of the row operations *)
Lemma ent_app_zero (B : list (list Z)) c n a k : ent (B ++ repeat (repeat 0%Z c) n) a k = if a <? length B then ent B a k else 0%Z.
Proof.
  unfold ent. destruct (Nat.ltb_spec a (length B)); [now rewrite app_nth1|]. rewrite app_nth2 by lia.
  destruct (Nat.lt_ge_cases (a - length B) n).
  - rewrite nth_indep with (d' := repeat 0%Z c) by (rewrite repeat_length; lia). rewrite nth_repeat. apply nth_repeat.
  - rewrite nth_overflow with (n := a - length B) by (rewrite repeat_length; lia). destruct k; reflexivity.
Qed.
Lemma ent_end (B : list (list Z)) a k : length B <= a -> ent B a k = 0%Z.
Proof. intros H. unfold ent. rewrite nth_overflow with (n := a) by lia. destruct k; reflexivity. Qed.
Lemma sg_sym (M : list (list Z)) i j : sg M i j = sg M j i.
Proof. apply sgent_sym. Qed.
Lemma create_inv x n : good x -> ralloc x <= gd (rz x) + n ->
  exists x1, create_rows fo en_e junk x n = Some x1 /\ rwf fo x1 /\ Inv (rz x1) /\ gd (rz x1) = gd (rz x) + n /\
    nkr (rz x1) = gd (rz x) + n /\ nsr (rz x1) = gd (rz x) + n /\ locked (rz x1) = false /\ ralloc x1 = gd (rz x) + n /\ rucols x1 = rucols x /\
    flags_eq (rz x) (rz x1) /\ nkc (rz x) <= nkc (rz x1) /\
    (forall a k, ent (gb (rz x1)) a k = if a <? gd (rz x) then ent (gb (rz x)) a k else 0%Z) /\
    (en_t (rz x) = true -> dims (gd (rz x) + n) (rucols x) (gu (rz x1)) /\
       forall a k, ent (gu (rz x1)) a k = if a <? gd (rz x) then ent (gu (rz x)) a k else 0%Z).
Proof.
  intros HG Hal. pose proof HG as [HW Hk Hs Hi Hu Ht Hgm].
  destruct (gso_created_rows_are_zero fo en_e junk x n HW Hk (fun E => proj1 (Hu E))) as [x1 [E [W1 [G1 [K1 [OldR New]]]]]].
  exists x1. split; [exact E|]. split; [exact W1|].
  destruct (create_kept x n x1 HG E) as [y [[] [A [Yb [Yu [Yc [Yg [Yt [Yi [Yf [Yl [Yuc [Ykc [Ykr [Ysr Ygg]]]]]]]]]]]]]]].
  pose proof (R_l _ _ W1) as HL. pose proof (GsoRowsProofs.W_al _ _ _ (R_w _ _ HW)) as Hal0.
  assert (A' : ralloc x1 = gd (rz x) + n) by lia. 
  assert (Hb : forall a k, ent (gb (rz x1)) a k = if a <? gd (rz x) then ent (gb (rz x)) a k else 0%Z).
  { intros a k. rewrite k_b0, Yb. apply ent_app_zero. }
  assert (Hu1 : en_t (rz x) = true -> dims (gd (rz x) + n) (rucols x) (gu (rz x1)) /\
       forall a k, ent (gu (rz x1)) a k = if a <? gd (rz x) then ent (gu (rz x)) a k else 0%Z).
  { intros Et. rewrite k_u0, Yu, Et. destruct (Hu Et) as [LU RU]. split.
    - split; [now rewrite app_length, repeat_length, LU|]. intros i Hi'. destruct (Nat.lt_ge_cases i (length (gu (rz x)))); [rewrite app_nth1 by lia; apply RU; lia|].
      rewrite app_nth2 by lia. rewrite nth_indep with (d' := repeat 0%Z (rucols x)) by (rewrite repeat_length; lia). rewrite nth_repeat. apply repeat_length.
    - intros a k. rewrite ent_app_zero, LU. reflexivity. }
  assert (Hs1 : nsr (rz x1) = nkr (rz x1)) by (apply k_s0; [rewrite Yl; apply (R_l _ _ HW)|congruence]).
  assert (Fl : flags_eq (rz x) (rz x1)) by (repeat split; congruence).
  pose proof (R_w _ _ W1) as [Wc Wb Wal [Wi1 Wi2] Wkc Wg Wgf Wre Wvc].
  assert (IV : Inv (rz x1)).
  { constructor.
    - split; [reflexivity|]. exact Wb.
    - exact Wc.
    - lia.
    - intros _. exact Hs1.
    - rewrite Wi1. split; [lia|]. intros i Hi'. split; [apply (R_pos _ _ W1); lia|apply Wi2; lia].
    - intros i k Hi' Hk'. rewrite Hb. destruct (Nat.ltb_spec i (gd (rz x))); [|reflexivity]. apply Ht; [assumption|]. lia.
    - intros i k Hi' Hk'. rewrite Hb. destruct (Nat.ltb_spec i (gd (rz x))); [|reflexivity]. apply Ht; [assumption|]. lia.
    - intros H. apply (R_kc _ _ W1). lia.
    - intros Eg. split; [exact HL|]. rewrite A' in Wg. rewrite G1. split; [now apply Wg|].
      assert (Sym : forall i j, j <= i -> i < nkr (rz x1) -> sg (gg (rz x1)) i j = inner (gc (rz x1)) (nth i (gb (rz x1)) []) (nth j (gb (rz x1)) [])).
      { intros i j Hj Hi'. destruct (Nat.lt_ge_cases i (gd (rz x))) as [Lt|Ge].
        - destruct Fl as [-> [Fg _]]. rewrite !OldR by lia. rewrite <- Hgm by (try congruence; lia). unfold sgent. destruct (Nat.leb_spec j i); [|lia].
          rewrite k_g0 by lia. rewrite Ygg. reflexivity.
        - destruct (New i) as [NB [_ NG]]; [lia|]. specialize (NG j Hj). unfold get_int_gram in NG. rewrite Eg in NG.
          rewrite (mget_some 0%Z (ralloc x1) (ralloc x1)) in NG; [|rewrite A'; now apply Wg|lia|lia]. injection NG as NG.
          unfold sgent. destruct (Nat.leb_spec j i); [|lia]. rewrite NG. symmetry. unfold inner. apply zsum_0. intros t _.
          change (nth t (nth i (gb (rz x1)) []) 0%Z) with (ent (gb (rz x1)) i t). rewrite Hb. destruct (Nat.ltb_spec i (gd (rz x))); [lia|]. ring. }
      intros i j Hi' Hj'. destruct (Nat.le_gt_cases j i); [apply Sym; lia|]. rewrite sg_sym, Sym by lia. apply inner_comm.
    - intros Et. rewrite G1. exists (rucols x). apply Hu1. destruct Fl as [_ [_ [F _]]]. congruence.
    - intros _ Ei. destruct Fl as [_ [_ [_ [F _]]]]. congruence. }
  split; [exact IV|]. split; [exact G1|]. split; [exact K1|]. split; [congruence|]. split; [exact HL|]. split; [exact A'|]. split; [congruence|].
  split; [exact Fl|]. split; [lia|]. split; [exact Hb|exact Hu1].
Qed.

(** one row operation *)
Lemma row_step z i j m : Inv z -> i < nkr z -> j < nsr z -> i <> j ->
  let '(lx, e, zx, e2) := m in
  exists z', row_addmul_we z i j lx e zx e2 = Some z' /\ Inv z' /\ same_known z z' /\ flags_eq z z' /\ gd z' = gd z /\
    (forall a k, ent (gb z') a k = ent (gb z) a k + if (a =? i)%nat then mval (force_long z) m * ent (gb z) j k else 0)%Z /\
    (en_t z = true -> (forall c, dims (gd z) c (gu z) -> dims (gd z) c (gu z')) /\
       forall a k, ent (gu z') a k = ent (gu z) a k + if (a =? i)%nat then mval (force_long z) m * ent (gu z) j k else 0)%Z.
Proof.
  destruct m as [[[lx e] zx] e2]. intros HI Hi Hj Hij.
  assert (HL : legal z (OAddmulWe i j lx e zx e2)) by (cbn; unfold legal_rowop; lia).
  destruct (rowop_effect z (OAddmulWe i j lx e zx e2) i j (mval (force_long z) (lx, e, zx, e2)) HI eq_refl HL) as [z' [E H]].
  exists z'. split; [exact E|]. pose proof (gstep_known i (S i) z (OAddmulWe i j lx e zx e2) z' ltac:(cbn; lia) E) as K.
  destruct H as [[S1 [S2 [S3 [[S4 S5] [S6 [S7 [S8 S9]]]]]]]|[X ->]].
  - split; [exact S1|]. split; [exact K|]. split; [exact S2|]. split; [exact S4|]. split; [exact S5|].
    intros Et. split; [apply S9; exact Et|]. apply S7. exact Et.
  - split; [exact HI|]. split; [exact K|]. split; [repeat split|]. split; [reflexivity|]. rewrite X.
    split; [intros a k; destruct (a =? i); ring|]. intros _. split; [auto|]. intros a k. destruct (a =? i); ring.
Qed.

Lemma flags_trans a b c : flags_eq a b -> flags_eq b c -> flags_eq a c.
Proof. intros [? [? [? [? ?]]]] [? [? [? [? ?]]]]. repeat split; congruence. Qed.
Lemma known_trans a b c : same_known a b -> same_known b c -> same_known a c.
Proof. intros [? [? [? [? ?]]]] [? [? [? [? ?]]]]. repeat split; congruence. Qed.

(** the value of row a after the rows D .. D+i-1 were combined completely and row D+i from the first j columns *)
Definition part (fl : bool) (T : list (list mult)) (c D src i j : nat) (M : list (list Z)) (a k : nat) : Z :=
  (ent M a k + (if ((D <=? a) && (a <? D + i))%nat then zsum c (fun t => mval fl (nth t (nth (a - D)%nat T []) (0%Z, 0%nat, 0%Z, 0%nat)) * ent M (src + t)%nat k)
   else if (a =? D + i)%nat then zsum j (fun t => mval fl (nth t (nth i T []) (0%Z, 0%nat, 0%Z, 0%nat)) * ent M (src + t)%nat k) else 0))%Z.

Lemma part_low fl T c D src i j M a k : a < D -> part fl T c D src i j M a k = ent M a k.
Proof. intros H. unfold part. destruct (Nat.leb_spec D a); [lia|]. cbn [andb]. destruct (Nat.eqb_spec a (D + i)); [lia|]. ring. Qed.
Lemma part_col fl T c D src i j M M' a k : (forall a k, ent M' a k = part fl T c D src i j M a k)%Z ->
  src + j < D ->
  (part fl T c D src i j M a k + (if (a =? D + i)%nat then mval fl (nth j (nth i T []) (0%Z, 0%nat, 0%Z, 0%nat)) * ent M' (src + j)%nat k else 0))%Z = part fl T c D src i (S j) M a k.
Proof.
  intros H Hj. rewrite H, (part_low fl T c D src i j M (src + j) k) by lia. unfold part. cbn [zsum].
  destruct (Nat.eqb_spec a (D + i)) as [->|]; [|destruct ((D <=? a) && (a <? D + i)); ring].
  destruct (Nat.ltb_spec (D + i) (D + i)); [lia|]. rewrite andb_false_r. ring.
Qed.
Lemma part_row fl T c D src i M a k : part fl T c D src i c M a k = part fl T c D src (S i) 0 M a k.
Proof.
  unfold part. cbn [zsum]. f_equal. destruct (Nat.leb_spec D a); cbn [andb].
  - destruct (Nat.ltb_spec a (D + i)); destruct (Nat.ltb_spec a (D + S i)); try lia; try reflexivity.
    + destruct (Nat.eqb_spec a (D + i)); [|lia]. subst a. replace (D + i - D) with i by lia. reflexivity.
    + destruct (Nat.eqb_spec a (D + i)); [lia|]. destruct (a =? D + S i); reflexivity.
  - destruct (Nat.eqb_spec a (D + i)); [lia|]. destruct (Nat.eqb_spec a (D + S i)); [lia|]. reflexivity.
Qed.

(** the state during the combination of rows *)
Record during (T : list (list mult)) (c D src : nat) (z0 : gz) (cu i j : nat) (z : gz) : Prop := {
  u_inv : Inv z; u_known : same_known z0 z; u_flags : flags_eq z0 z; u_d : gd z = gd z0;
  u_b : forall a k, ent (gb z) a k = part (force_long z0) T c D src i j (gb z0) a k;
  u_u : en_t z0 = true -> dims (gd z0) cu (gu z) /\ forall a k, ent (gu z) a k = part (force_long z0) T c D src i j (gu z0) a k }.

Lemma combine_ok T c D src cu z0 : Inv z0 -> dims (length T) c T -> gd z0 = D + length T -> nkr z0 = gd z0 -> nsr z0 = gd z0 -> src + c <= D ->
  (en_t z0 = true -> dims (gd z0) cu (gu z0)) ->
  exists z, combine_rows T c D src z0 = Some z /\ during T c D src z0 cu (length T) 0 z.
Proof.
  intros HI HT Hd Hk Hs Hc Hu. unfold combine_rows.
  destruct (ofor_inv (fun i z => during T c D src z0 cu i 0 z) (fun i z =>
    ofor (seq 0 c) (fun j z => m <- mget T i j;; let '(lx, e, zx, e2) := m in row_addmul_we z (D + i) (src + j) lx e zx e2) z) (length T) 0 z0) as [z [E H]].
  - constructor; auto; [repeat split|repeat split| |].
    + intros a k. unfold part. cbn [zsum]. destruct (Nat.leb_spec D a); cbn [andb]; [destruct (Nat.ltb_spec a (D + 0)); [lia|]|]; destruct (a =? D + 0); ring.
    + intros Et. split; [now apply Hu|]. intros a k. unfold part. cbn [zsum]. destruct (Nat.leb_spec D a); cbn [andb]; [destruct (Nat.ltb_spec a (D + 0)); [lia|]|]; destruct (a =? D + 0); ring.
  - intros i z Hi Hz.
    destruct (ofor_inv (fun j z => during T c D src z0 cu i j z) (fun j z => m <- mget T i j;; let '(lx, e, zx, e2) := m in row_addmul_we z (D + i) (src + j) lx e zx e2) c 0 z) as [z' [E H]]; [exact Hz| |].
    + intros j w Hj [U1 U2 U3 U4 U5 U6].
      assert (MG : mget T i j = Some (gent ((0%Z, 0%nat, 0%Z, 0%nat) : mult) T i j)) by (apply (mget_some _ (length T) c); [exact HT|lia|lia]). rewrite MG. cbn [obind].
      unfold gent. set (m := nth j (nth i T []) (0%Z, 0%nat, 0%Z, 0%nat)).
      pose proof U2 as [N1 [N2 _]]. pose proof U3 as [F1 [F2 [F3 [F4 F5]]]].
      pose proof (row_step w (D + i) (src + j) m U1 ltac:(lia) ltac:(lia) ltac:(lia)) as R. destruct m as [[[lx e] zx] e2] eqn:Em.
      destruct R as [w' [E [R1 [R2 [R3 [R4 [R5 R6]]]]]]]. exists w'. split; [exact E|]. constructor.
      * exact R1.
      * now apply known_trans with w.
      * now apply flags_trans with w.
      * congruence.
      * intros a k. rewrite R5, U5, F5. rewrite <- (part_col _ T c D src i j (gb z0) (gb w)) by (try lia; exact U5). fold m. rewrite Em. reflexivity.
      * intros Et. destruct (U6 Et) as [D6 U6']. destruct R6 as [D7 R6]; [congruence|]. split; [rewrite U4 in D7; now apply D7|].
        intros a k. rewrite R6, U6', F5. rewrite <- (part_col _ T c D src i j (gu z0) (gu w)) by (try lia; exact U6'). fold m. rewrite Em. reflexivity.
    + exists z'. split; [exact E|]. destruct H as [U1 U2 U3 U4 U5 U6]. constructor; auto; [intros a k; rewrite U5; apply part_row|].
      intros Et. destruct (U6 Et) as [D6 U6']. split; [exact D6|]. intros a k. rewrite U6'. apply part_row.
  - exists z. split; [exact E|exact H].
Qed.

(** row a after i exchanges is the row [perm] a of before *)
Definition perm (D tgt i a : nat) : nat :=
  if (tgt <=? a) && (a <? tgt + i) then D + (a - tgt) else if (D <=? a) && (a <? D + i) then tgt + (a - D) else a.
Lemma perm_next D tgt i a : tgt + i < D -> perm D tgt i (tr (tgt + i) (D + i) a) = perm D tgt (S i) a.
Proof.
  intros H. unfold perm, tr.
  destruct (Nat.eqb_spec a (tgt + i)); [subst a|destruct (Nat.eqb_spec a (D + i)); [subst a|]]; bdestr; subst; try lia.
Qed.
Record exchanged (D tgt : nat) (z0 : gz) (cu i : nat) (z : gz) : Prop := {
  e_inv : Inv z; e_known : same_known z0 z; e_flags : flags_eq z0 z; e_d : gd z = gd z0;
  e_b : forall a k, a < gd z0 -> ent (gb z) a k = ent (gb z0) (perm D tgt i a) k;
  e_u : en_t z0 = true -> dims (gd z0) cu (gu z) /\ forall a k, a < gd z0 -> ent (gu z) a k = ent (gu z0) (perm D tgt i a) k }.
Lemma swap_ok D tgt n cu z0 : Inv z0 -> gd z0 = D + n -> nkr z0 = gd z0 -> en_i z0 = false -> locked z0 = false -> tgt + n <= D ->
  (en_t z0 = true -> dims (gd z0) cu (gu z0)) ->
  exists z, swap_rows n D tgt z0 = Some z /\ exchanged D tgt z0 cu n z.
Proof.
  intros HI Hd Hk Hi Hl Ht Hu. unfold swap_rows.
  destruct (ofor_inv (fun i z => exchanged D tgt z0 cu i z) (fun i z => row_swap z (tgt + i) (D + i)) n 0 z0) as [z [E H]].
  - assert (P0 : forall a, perm D tgt 0 a = a) by (intros a; unfold perm; bdestr; lia).
    constructor.
    + exact HI.
    + repeat split.
    + repeat split.
    + reflexivity.
    + intros a k _. now rewrite P0.
    + intros Et. split; [now apply Hu|]. intros a k _. now rewrite P0.
  - intros i w Hi' [U1 U2 U3 U4 U5 U6]. pose proof U2 as [N1 [N2 [N3 [N4 N5]]]]. pose proof U3 as [F1 [F2 [F3 [F4 F5]]]].
    assert (HL : legal w (OSwap (tgt + i) (D + i))) by (cbn; split; [lia|split; congruence]).
    destruct (row_swap_ok w (tgt + i) (D + i) U1 HL) as [w' [E [S1 [S2 [S3 [[S4 S5] [S6 [S7 [S8 S9]]]]]]]]].
    pose proof (gstep_known (tgt + i) (S (D + i)) w (OSwap (tgt + i) (D + i)) w' ltac:(cbn; lia) E) as K.
    assert (LT : forall a, a < gd z0 -> tr (tgt + i) (D + i) a < gd z0) by (intros a Ha; apply tr_lt; lia).
    exists w'. split; [exact E|]. constructor.
    + exact S1.
    + now apply known_trans with w.
    + now apply flags_trans with w.
    + unfold gd in *. congruence.
    + intros a k Ha. rewrite S5 by (unfold gd in *; lia). rewrite U5 by (now apply LT). now rewrite perm_next by lia.
    + intros Et. destruct (U6 Et) as [D6 U6']. destruct (S7 ltac:(congruence)) as [S71 S72].
      destruct S9 as [S9 _]. split; [rewrite U4 in S9; apply S9; [congruence|exact D6]|].
      intros a k Ha. rewrite S72 by (destruct D6; lia). rewrite U6' by (now apply LT). now rewrite perm_next by lia.
  - exists z. split; [exact E|exact H].
Qed.

(** row_op_end *)
Definition sdims (al : nat) (z : gz) (s : fst_ fo) : Prop :=
  (en_g z = false -> dims al al (fgf s) /\ dims al (gc z) (fbf s)) /\ length (fre s) = al /\ length (fvc s) = al /\ length (fmu s) = al.
Lemma inval_ok al z s i v : sdims al z s -> i < al -> exists s', invalidate_gso_row fo s i v = Some s' /\ sdims al z s'.
Proof.
  intros [H1 [H2 [H3 H4]]] Hi. unfold invalidate_gso_row. rewrite (nth_error_nth' (fvc s) 0) by lia. cbn [obind]. eexists. split; [reflexivity|].
  split; [exact H1|]. split; [exact H2|]. split; [cbn [set_vc fvc]; now rewrite upd_length|exact H4].
Qed.
Lemma row_op_end_defined z s f l : Inv z -> nkr z = gd z -> sdims (gd z) z s -> l <= gd z ->
  exists s', row_op_end fo en_e z s f l = Some s' /\ sdims (gd z) z s'.
Proof.
  intros HI Hk HS Hl. unfold row_op_end.
  match goal with |- context [ofor (seq f (l - f)) ?g s] => destruct (ofor_inv (fun _ s' => sdims (gd z) z s') g (l - f) f s) as [s1 [E1 D1]]; [exact HS| |] end.
  - intros i s1 Hi D1.
    assert (X : exists s2, (if en_g z then Some s1 else s2 <- update_bf fo en_e z s1 i;; s3 <- invalidate_gram_row fo s2 i;;
                   g' <- ofor (seq (i + 1) (nkr z - (i + 1))) (fun j g => mset g j i None) (fgf s3);; Some (set_gf fo s3 g')) = Some s2 /\ sdims (gd z) z s2).
    { destruct (en_g z) eqn:EG; [exists s1; auto|]. destruct D1 as [D1 [D2 [D3 D4]]]. destruct (D1 EG) as [DG DB].
      destruct (I_irs _ HI) as [LI HIi]. destruct (I_b _ HI) as [LB RB]. destruct (I_known _ HI) as [_ [_ KC]].
      destruct (update_bf_dims fo en_e z s1 i (gd z)) as [s2 [E2 [B1 [B2 [B3 [B4 [B5 B6]]]]]]]; auto; try (specialize (HIi i); unfold gd in *; lia); [apply RB; lia|].
      rewrite E2. cbn [obind].
      destruct (invalidate_gram_row_ok fo (gd z) s2 i) as [s3 [A1 [A2 [A3 [A4 [A5 [A6 [A7 _]]]]]]]]; [rewrite B5; exact DG|lia|].
      rewrite A1. cbn [obind].
      destruct (ofor_inv (fun _ g => dims (gd z) (gd z) g) (fun j g => mset g j i (@None (F fo))) (nkr z - (i + 1)) (i + 1) (fgf s3)) as [g' [Eg Dg]]; auto.
      { intros j g Hj Dg. destruct (mset_some (@None (F fo)) (gd z) (gd z) g j i None) as [g2 [X1 [X2 _]]]; auto; [lia|lia|]. eauto. }
      rewrite Eg. cbn [obind]. eexists. split; [reflexivity|]. split; [intros _; split; [exact Dg|cbn [set_gf fbf]; congruence]|].
      cbn [set_gf fre fvc fmu]. repeat split; congruence. }
    destruct X as [s2 [-> X]]. cbn [obind]. apply inval_ok; [exact X|lia].
  - rewrite E1. cbn [obind].
    destruct (ofor_inv (fun _ s' => sdims (gd z) z s') (fun i s => invalidate_gso_row fo s i f) (nkr z - l) l s1) as [s2 [E2 D2]]; [exact D1| |exists s2; auto].
    intros i s' Hi D'. apply inval_ok; [exact D'|lia].
Qed.

(** C85: apply_transform replaces the target rows of b, and of u if it is kept, by the stated
    combinations of the source rows, changes no other row, and leaves a usable object of the same
    size whose integer Gram matrix is the one of the new basis *)
Theorem transform_applied : forall x T c src tgt, good x -> dims (length T) c T ->
  src + c <= gd (rz x) -> tgt + length T <= gd (rz x) -> ralloc x <= gd (rz x) + length T ->
  exists x', apply_transform fo en_e junk x T c src tgt = Some x' /\ good x' /\
    gd (rz x') = gd (rz x) /\ ralloc x' = gd (rz x) + length T /\ rucols x' = rucols x /\ flags_eq (rz x) (rz x') /\
    (forall a k, a < gd (rz x) -> ent (gb (rz x')) a k = transformed (force_long (rz x)) T c src tgt (gb (rz x)) a k) /\
    (en_t (rz x) = true -> forall a k, a < gd (rz x) -> ent (gu (rz x')) a k = transformed (force_long (rz x)) T c src tgt (gu (rz x)) a k).
Proof.
  intros x T c src tgt HG HT Hsrc Htgt Hal. set (n := length T) in *. set (D := gd (rz x)) in *.
  destruct (create_inv x n HG Hal) as [x1 [E1 [W1 [I1 [G1 [K1 [S1 [L1 [A1 [U1 [F1 [KC1 [B1 BU1]]]]]]]]]]]]]. fold D in G1, K1, S1, A1, B1, BU1.
  pose proof F1 as [Fc [Fg [Ft [Fi Ff]]]].
  destruct (combine_ok T c D src (rucols x) (rz x1) I1 HT ltac:(fold n; lia) ltac:(lia) ltac:(lia) Hsrc) as [z2 [E2 [V1 V2 V3 V4 V5 V6]]].
  { intros Et. rewrite G1. apply BU1. congruence. }
  fold n in E2, V5, V6. pose proof V2 as [M1 [M2 [M3 [M4 M5]]]]. pose proof V3 as [H1 [H2 [H3 [H4 H5]]]].
  destruct (swap_ok D tgt n (rucols x) z2 V1 ltac:(lia) ltac:(lia)) as [z3 [E3 [X1 X2 X3 X4 X5 X6]]]; [rewrite H4, Fi; apply (g_i _ HG)|congruence|exact Htgt| |].
  { intros Et. rewrite V4. apply V6. congruence. }
  pose proof X2 as [N1 [N2 [N3 [N4 N5]]]]. pose proof X3 as [J1 [J2 [J3 [J4 J5]]]].
  assert (G3 : gd z3 = D + n) by lia.
  pose proof (R_w _ _ W1) as [Wc Wb Wal [Wi1 Wi2] Wkc Wg Wgf Wre Wvc].
  destruct (row_op_end_defined z3 (rs x1) tgt (tgt + n) X1 ltac:(lia)) as [s3 [E4 [Q1 [Q2 [Q3 Q4]]]]]; [|lia|].
  { split; [|rewrite G3; split; [congruence|split; [congruence|rewrite (R_mu _ _ W1); exact A1]]].
    intros Eg. rewrite G3, <- A1, J1, H1. apply Wgf. congruence. }
  unfold apply_transform. cbv zeta. fold n D. rewrite E1. cbn [obind]. rewrite E2. cbn [obind]. rewrite E3. cbn [obind]. rewrite E4. cbn [obind].
  eexists. split; [reflexivity|]. set (y := remove_last_rows fo _ n).
  assert (Y : gb (rz y) = firstn D (gb z3) /\ gc (rz y) = gc z3 /\ gg (rz y) = gg z3 /\ en_g (rz y) = en_g z3 /\ en_t (rz y) = en_t z3 /\ en_i (rz y) = en_i z3 /\
    force_long (rz y) = force_long z3 /\ locked (rz y) = locked z3 /\ nkc (rz y) = nkc z3 /\ irs (rz y) = irs z3 /\ nkr (rz y) = D /\ nsr (rz y) = D /\ ralloc y = ralloc x1 /\ rucols y = rucols x1 /\ rs y = s3 /\
    (en_t z3 = true -> gu (rz y) = firstn D (gu z3))).
  { unfold y, remove_last_rows. cbn [rz rs ralloc rucols]. replace (gd z3 - n) with D by lia. replace (Nat.min (nkr z3) D) with D by lia.
    destruct (en_t z3) eqn:Et; cbn; rewrite ?Et; repeat (split; [reflexivity|]); [reflexivity|discriminate]. }
  destruct Y as [Yb [Yc [Yg [Yeg [Yet [Yei [Yfl [Yl [Ykc [Yi [Ykr [Ysr [Yal [Yuc [Ys Yu]]]]]]]]]]]]]]].
  assert (GY : gd (rz y) = D). { unfold gd. rewrite Yb, firstn_length. unfold gd in G3. lia. }
  assert (P1 : forall M a k, a < D -> (forall a k, D <= a -> ent M a k = 0%Z) -> part (force_long (rz x1)) T c D src n 0 M (perm D tgt n a) k = transformed (force_long (rz x)) T c src tgt M a k).
  { intros M a k Ha HZ. unfold transformed, perm. fold n. destruct ((tgt <=? a) && (a <? tgt + n)) eqn:C.
    - apply andb_prop in C. destruct C as [C1 C2]. apply Nat.leb_le in C1. apply Nat.ltb_lt in C2. unfold part.
      rewrite HZ by lia. destruct (Nat.leb_spec D (D + (a - tgt))); [|lia]. destruct (Nat.ltb_spec (D + (a - tgt)) (D + n)); [|lia]. cbn [andb].
      replace (D + (a - tgt) - D) with (a - tgt) by lia. rewrite Ff. ring.
    - destruct (Nat.leb_spec D a); [lia|]. cbn [andb]. now apply part_low. }
  assert (B : forall a k, a < D -> ent (gb (rz y)) a k = transformed (force_long (rz x)) T c src tgt (gb (rz x)) a k).
  { intros a k Ha. unfold ent at 1. rewrite Yb, nth_firstn_lt by exact Ha. change (ent (gb z3) a k = transformed (force_long (rz x)) T c src tgt (gb (rz x)) a k).
    rewrite X5 by lia. rewrite V5, P1; [|exact Ha|intros a' k' Ha'; rewrite B1; destruct (Nat.ltb_spec a' D); [lia|reflexivity]].
    unfold transformed. destruct ((tgt <=? a) && (a <? tgt + length T)).
    - apply zsum_ext. intros t Ht'. rewrite B1. destruct (Nat.ltb_spec (src + t) D); [reflexivity|lia].
    - rewrite B1. destruct (Nat.ltb_spec a D); [reflexivity|lia]. }
  assert (BU : en_t (rz x) = true -> dims D (rucols x) (gu (rz y)) /\ forall a k, a < D -> ent (gu (rz y)) a k = transformed (force_long (rz x)) T c src tgt (gu (rz x)) a k).
  { intros Et. destruct X6 as [D6 X6]; [congruence|]. destruct V6 as [D7 V6]; [congruence|]. destruct (BU1 Et) as [D8 BU1']. rewrite Yu by congruence. split.
    - destruct D6 as [D61 D62]. split; [rewrite firstn_length; lia|]. intros i Hi'. rewrite nth_firstn_lt by exact Hi'. apply D62. lia.
    - intros a k Ha. unfold ent at 1. rewrite nth_firstn_lt by exact Ha. change (ent (gu z3) a k = transformed (force_long (rz x)) T c src tgt (gu (rz x)) a k).
      rewrite X6 by lia. rewrite V6, P1; [|exact Ha|intros a' k' Ha'; rewrite BU1'; destruct (Nat.ltb_spec a' D); [lia|reflexivity]].
      unfold transformed. destruct ((tgt <=? a) && (a <? tgt + length T)).
      + apply zsum_ext. intros t Ht'. rewrite BU1'. destruct (Nat.ltb_spec (src + t) D); [reflexivity|lia].
      + rewrite BU1'. destruct (Nat.ltb_spec a D); [reflexivity|lia]. }
  assert (FL : flags_eq (rz x) (rz y)) by (repeat split; congruence).
  split.
  { constructor.
    - constructor.
      + constructor; rewrite ?Yc, ?Yal, ?Ys, ?Yi, ?Ykc, ?GY.
        * congruence.
        * intros i Hi'. fold (gd (rz y)) in Hi'. rewrite GY in Hi'. rewrite Yb, nth_firstn_lt by exact Hi'. destruct (I_b _ X1) as [_ RB]. apply RB. lia.
        * lia.
        * rewrite N5, M5, J1, H1. split; [exact Wi1|exact Wi2].
        * rewrite N3, M3, J1, H1. exact Wkc.
        * intros Eg. rewrite Yg, A1. rewrite Yeg in Eg. destruct (I_g _ X1 Eg) as [_ [DG _]]. now rewrite G3 in DG.
        * intros Eg. rewrite Yeg in Eg. destruct (Q1 Eg) as [Q11 Q12]. rewrite A1, <- G3. split; assumption.
        * congruence.
        * congruence.
      + intros i Hi'. rewrite Yi, N5, M5. apply (R_pos _ _ W1). congruence.
      + congruence.
      + intros H0. rewrite Ykr in H0. rewrite Ykc. apply (I_kc _ X1). lia.
      + rewrite Yl. congruence.
    - congruence.
    - congruence.
    - rewrite Yei. rewrite J4, H4, Fi. apply (g_i _ HG).
    - intros Et. rewrite Yuc, U1, GY. apply BU. congruence.
    - intros i k Hi' Hk'. rewrite GY in Hi'. rewrite Yb. unfold ent. rewrite nth_firstn_lt by exact Hi'. apply (I_src _ X1); [lia|congruence].
    - intros Eg i j Hi' Hj'. rewrite GY in Hi', Hj'. rewrite Yg, Yb, Yc, !nth_firstn_lt by assumption. rewrite Yeg in Eg. apply (I_g _ X1 Eg); lia. }
  split; [exact GY|]. split; [congruence|]. split; [congruence|]. split; [exact FL|]. split; [exact B|]. intros Et. apply (BU Et).
Qed.
End P.

(** *** The lattice *)
Lemma block_sum D src c (f g : nat -> Z) : src + c <= D ->
  zsum D (fun t => (if ((src <=? t) && (t <? src + c))%nat then f (t - src)%nat else 0) * g t)%Z = zsum c (fun j => f j * g (src + j)%nat)%Z.
Proof.
  intros H. replace D with (src + (c + (D - src - c))) by lia. rewrite zsum_split, zsum_split.
  rewrite zsum_0, (zsum_0 (D - src - c)).
  - rewrite Z.add_0_l, Z.add_0_r. apply zsum_ext. intros i Hi. destruct (Nat.leb_spec src (src + i)); [|lia]. destruct (Nat.ltb_spec (src + i) (src + c)); [|lia].
    cbn [andb]. f_equal. f_equal. lia.
  - intros i Hi. destruct (Nat.ltb_spec (src + (c + i)) (src + c)); [lia|]. rewrite andb_false_r. ring.
  - intros i Hi. destruct (Nat.leb_spec src i); [lia|]. reflexivity.
Qed.
Lemma lattice_sub n (B B' : list (list Z)) (W : nat -> nat -> Z) :
  (forall a k, a < length B -> ent B a k = zsum (length B') (fun t => W a t * ent B' t k)%Z) -> forall v, in_lattice n B v -> in_lattice n B' v.
Proof.
  intros H v [Hl [co Hc]]. split; [exact Hl|]. exists (fun t => zsum (length B) (fun a => co a * W a t)%Z). intros j Hj. rewrite Hc by exact Hj.
  rewrite (zsum_ext _ _ (fun i => zsum (length B') (fun t => co i * W i t * ent B' t j)%Z)).
  - rewrite zsum_swap. apply zsum_ext. intros t _. now rewrite zsum_scal_r.
  - intros i Hi. rewrite H by exact Hi. rewrite <- zsum_scal. apply zsum_ext. intros t _. ring.
Qed.
(** rows of M' are the rows of M with the block at p replaced by combinations, with coefficients f, of the block of M at p *)
Lemma block_lattice n D p c (f : nat -> nat -> Z) (M M' : list (list Z)) : length M = D -> length M' = D -> p + c <= D ->
  (forall a k, a < D -> ent M' a k = if ((p <=? a) && (a <? p + c))%nat then zsum c (fun j => f (a - p)%nat j * ent M (p + j)%nat k)%Z else ent M a k) ->
  forall v, in_lattice n M' v -> in_lattice n M v.
Proof.
  intros L L' Hp H.
  apply (lattice_sub n M' M (fun a t => if ((p <=? a) && (a <? p + c))%nat then (if ((p <=? t) && (t <? p + c))%nat then f (a - p)%nat (t - p)%nat else 0%Z) else if (t =? a)%nat then 1%Z else 0%Z)).
  intros a k Ha. rewrite H by lia. rewrite L. destruct ((p <=? a) && (a <? p + c)).
  - symmetry. exact (block_sum D p c (fun j => f (a - p)%nat j) (fun t => ent M t k) Hp).
  - rewrite (zsum_ext _ _ (fun t => if (t =? a)%nat then ent M t k else 0%Z)) by (intros t _; destruct (t =? a)%nat; ring). symmetry. apply (zsum_delta D a (fun t => ent M t k)). lia.
Qed.

Lemma transformed_in fl (T : list (list mult)) c src tgt M a k : tgt <= a < tgt + length T ->
  transformed fl T c src tgt M a k = zsum c (fun j => (mval fl (nth j (nth (a - tgt)%nat T []) (0%Z, 0%nat, 0%Z, 0%nat)) * ent M (src + j)%nat k)%Z).
Proof.
  intros H. unfold transformed. destruct (_ && _) eqn:C; [reflexivity|]. apply andb_false_iff in C. destruct C as [C|C]; [apply Nat.leb_gt in C|apply Nat.ltb_ge in C]; lia.
Qed.

(** C85: a transformation with an integer inverse, applied in place, keeps the lattice *)
Theorem transform_keeps_lattice : forall fo en_e junk (x : gr fo) T p (V : nat -> nat -> Z), good fo x -> dims (length T) (length T) T ->
  p + length T <= gd (rz x) -> ralloc x <= gd (rz x) + length T ->
  (forall i k, i < length T -> k < length T ->
     zsum (length T) (fun j => V i j * mval (force_long (rz x)) (nth k (nth j T []) (0%Z, 0%nat, 0%Z, 0%nat)))%Z = delta i k) ->
  exists x', apply_transform fo en_e junk x T (length T) p p = Some x' /\ good fo x' /\ same_lattice (gc (rz x)) (gb (rz x)) (gb (rz x')).
Proof.
  intros fo en_e junk x T p V HG HT Hp Hal HV.
  destruct (transform_applied fo en_e junk x T (length T) p p HG HT Hp Hp Hal) as [x' [E [HG' [G [_ [_ [_ [B _]]]]]]]].
  exists x'. split; [exact E|]. split; [exact HG'|]. set (n := length T) in *. set (D := gd (rz x)) in *.
  assert (L : length (gb (rz x)) = D) by reflexivity. assert (L' : length (gb (rz x')) = D) by exact G.
  intros v. split.
  - apply (block_lattice _ D p n V); try assumption. intros a k Ha. destruct ((p <=? a) && (a <? p + n)) eqn:C.
    + apply andb_prop in C. destruct C as [C1 C2]. apply Nat.leb_le in C1. apply Nat.ltb_lt in C2.
      rewrite (zsum_ext n _ (fun j => zsum n (fun t => V (a - p)%nat j * mval (force_long (rz x)) (nth t (nth j T []) (0%Z, 0%nat, 0%Z, 0%nat)) * ent (gb (rz x)) (p + t)%nat k)%Z)).
      * rewrite zsum_swap. rewrite (zsum_ext n _ (fun t => if (t =? (a - p))%nat then ent (gb (rz x)) (p + t)%nat k else 0%Z)).
        -- rewrite (zsum_delta n (a - p) (fun t => ent (gb (rz x)) (p + t)%nat k)) by lia. f_equal. lia.
        -- intros t Ht. rewrite zsum_scal_r, HV by lia. unfold delta. rewrite Nat.eqb_sym. destruct (t =? a - p)%nat; ring.
      * intros j Hj. rewrite B by lia. rewrite (transformed_in _ T n p p _ (p + j) k (conj (Nat.le_add_r p j) (proj1 (Nat.add_lt_mono_l j n p) Hj))).
        replace (p + j - p) with j by lia. rewrite <- zsum_scal. apply zsum_ext. intros t _. apply Z.mul_assoc.
    + rewrite B by exact Ha. unfold transformed. destruct (_ && _) eqn:C2; [discriminate C|reflexivity].
  - apply (block_lattice _ D p n (fun i j => mval (force_long (rz x)) (nth j (nth i T []) (0%Z, 0%nat, 0%Z, 0%nat)))); try assumption.
Qed.

(** *** Instances *)
Definition exact_entry (y : Z) : mult := (y, 0, 0%Z, 0).
Definition all_known (ig : bool) : option (gr qc_ops) :=
  x <- gr_new qc_ops false (Qcz 0) rows_b 3 (ident 3) [] 3 ig false;; discover_all qc_ops 3 x.
Definition zrow_from (k : nat) (row : list Z) : bool := forallb (fun y => (y =? 0)%Z) (skipn k row).
Definition goodb {fo} (x : gr fo) : bool :=
  let z := rz x in
  rwfb fo x && (nkr z =? gd z) && (nsr z =? gd z) && negb (en_i z) && (negb (en_t z) || dimsb (gd z) (rucols x) (gu z)) &&
  forallb (zrow_from (nkc z)) (gb z) &&
  (negb (en_g z) || forallb (fun i => forallb (fun j => (sg (gg z) i j =? inner (gc z) (nth i (gb z) []) (nth j (gb z) []))%Z) (seq 0 (gd z))) (seq 0 (gd z))).
Lemma goodb_ok {fo} (x : gr fo) : goodb x = true -> good fo x.
Proof.
  unfold goodb. cbv zeta. intros H. do 6 (apply andb_prop in H; destruct H as [H ?]). rewrite forallb_forall in H1.
  constructor; try (now apply Nat.eqb_eq); try (now apply rwfb_ok); try (now apply negb_true_iff).
  - intros E. rewrite E in H2. now apply dimsb_ok.
  - intros i k Hi Hk. unfold ent. assert (X : zrow_from (nkc (rz x)) (nth i (gb (rz x)) []) = true) by (apply H1; now apply nth_In).
    unfold zrow_from in X. rewrite forallb_forall in X. destruct (Nat.lt_ge_cases k (length (nth i (gb (rz x)) []))); [|now apply nth_overflow].
    apply Z.eqb_eq, X. replace k with (nkc (rz x) + (k - nkc (rz x))) by lia. rewrite <- (firstn_skipn (nkc (rz x)) (nth i (gb (rz x)) [])) at 1.
    rewrite app_nth2; rewrite firstn_length_le by lia; [|lia]. apply nth_In. rewrite skipn_length. lia.
  - intros E i j Hi Hj. rewrite E in H0. cbn [negb orb] in H0. rewrite forallb_forall in H0. specialize (H0 i). rewrite forallb_forall in H0. apply Z.eqb_eq, H0; apply in_seq; lia.
Qed.
Definition some_T : list (list mult) := [[exact_entry 2; exact_entry 3]; [exact_entry 1; (0%Z, 1, 1%Z, 1)]].
(** rows 1 and 2 become 2 b0 + 3 b1 and b0 + 2 b1, with and without integer Gram matrix *)
Example transform_case : forall ig, exists x, all_known ig = Some x /\ good qc_ops x /\ dims (length some_T) 2 some_T /\
  ralloc x <= gd (rz x) + length some_T /\
  exists x', apply_transform qc_ops false (Qcz 0) x some_T 2 0 1 = Some x' /\ gb (rz x') = [[1;2;0];[2;13;3];[1;8;2]]%Z /\ gu (rz x') = [[1;0;0];[2;3;0];[1;2;0]]%Z.
Proof.
  intros ig. assert (H : match all_known ig with Some x => goodb x && (ralloc x =? 3) && (gd (rz x) =? 3) && match apply_transform qc_ops false (Qcz 0) x some_T 2 0 1 with
     Some x' => (if list_eq_dec (list_eq_dec Z.eq_dec) (gb (rz x')) [[1;2;0];[2;13;3];[1;8;2]]%Z then true else false) && (if list_eq_dec (list_eq_dec Z.eq_dec) (gu (rz x')) [[1;0;0];[2;3;0];[1;2;0]]%Z then true else false)
     | None => false end | None => false end = true) by (destruct ig; vm_compute; reflexivity).
  destruct (all_known ig) as [x|]; [|discriminate H]. exists x. split; [reflexivity|]. do 3 (apply andb_prop in H; destruct H as [H ?]).
  split; [now apply goodb_ok|]. split; [now apply dimsb_ok|]. apply Nat.eqb_eq in H1, H2. split; [lia|].
  destruct (apply_transform qc_ops false (Qcz 0) x some_T 2 0 1) as [x'|]; [|discriminate H0]. exists x'. split; [reflexivity|]. apply andb_prop in H0. destruct H0 as [A B].
  destruct (list_eq_dec _ (gb (rz x')) _) as [->|]; [|discriminate A]. destruct (list_eq_dec _ (gu (rz x')) _) as [->|]; [|discriminate B]. split; reflexivity.
Qed.
(** the inverse of [[2, 3]; [1, 2]] is [[2, -3]; [-1, 2]] *)
Example inverse_case : forall i k, i < length some_T -> k < length some_T ->
  zsum (length some_T) (fun j => nth j (nth i [[2; -3]; [-1; 2]]%Z []) 0%Z * mval false (nth k (nth j some_T []) (0%Z, 0%nat, 0%Z, 0%nat)))%Z = delta i k.
Proof. intros [|[|i]] [|[|k]] Hi Hk; cbn in Hi, Hk; try lia; reflexivity. Qed.

(** *** False: that the object may be used right after construction, or with an inverse transform *)
(** without discover_all_rows the unit transformation makes the basis zero while u stays the identity *)
Theorem transform_undiscovered_refuted : exists b x x', gr_new qc_ops false (Qcz 0) b 2 (ident 2) [] 2 true false = Some x /\
  b = [[1;0];[0;1]]%Z /\ apply_transform qc_ops false (Qcz 0) x [[exact_entry 1; exact_entry 0]; [exact_entry 0; exact_entry 1]] 2 0 0 = Some x' /\
  gb (rz x') = [[0;0];[0;0]]%Z /\ gu (rz x') = ident 2.
Proof.
  exists [[1;0];[0;1]]%Z.
  assert (H : match gr_new qc_ops false (Qcz 0) [[1;0];[0;1]]%Z 2 (ident 2) [] 2 true false with Some x => match apply_transform qc_ops false (Qcz 0) x [[exact_entry 1; exact_entry 0]; [exact_entry 0; exact_entry 1]] 2 0 0 with
     Some x' => (if list_eq_dec (list_eq_dec Z.eq_dec) (gb (rz x')) [[0;0];[0;0]]%Z then true else false) && (if list_eq_dec (list_eq_dec Z.eq_dec) (gu (rz x')) (ident 2) then true else false)
     | None => false end | None => false end = true) by (vm_compute; reflexivity).
  destruct (gr_new _ _ _ _ _ _ _ _ _ _) as [x|]; [|discriminate H]. exists x. destruct (apply_transform _ _ _ x _ _ _ _) as [x'|]; [|discriminate H]. exists x'.
  apply andb_prop in H. destruct H as [A B]. destruct (list_eq_dec _ (gb (rz x')) _) as [->|]; [|discriminate A]. destruct (list_eq_dec _ (gu (rz x')) _) as [->|]; [|discriminate B]. auto.
Qed.
(** with an inverse transform the new row of u_inv_t does not exist: access out of range *)
Theorem transform_inverse_refuted : exists b x, b = [[1;0];[0;1]]%Z /\
  (y <- gr_new qc_ops false (Qcz 0) b 2 (ident 2) (ident 2) 2 true false;; discover_all qc_ops 2 y) = Some x /\
  apply_transform qc_ops false (Qcz 0) x [[exact_entry 1; exact_entry 0]; [exact_entry 0; exact_entry 1]] 2 0 0 = None.
Proof.
  exists [[1;0];[0;1]]%Z.
  assert (H : match (y <- gr_new qc_ops false (Qcz 0) [[1;0];[0;1]]%Z 2 (ident 2) (ident 2) 2 true false;; discover_all qc_ops 2 y) with
    Some x => match apply_transform qc_ops false (Qcz 0) x [[exact_entry 1; exact_entry 0]; [exact_entry 0; exact_entry 1]] 2 0 0 with None => true | _ => false end | None => false end = true) by (vm_compute; reflexivity).
  destruct (obind _ _) as [x|]; [|discriminate H]. exists x. destruct (apply_transform _ _ _ x _ _ _ _); [discriminate H|]. auto.
Qed.

Print Assumptions transform_applied.
Print Assumptions transform_keeps_lattice.
Print Assumptions transform_undiscovered_refuted.
Print Assumptions transform_inverse_refuted.
