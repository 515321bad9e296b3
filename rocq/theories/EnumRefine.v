(** The enumeration code with its caches computes the same as the cache-free description of
    EnumPure.v, for any arithmetic, any evaluator and any sub-enumeration. *)
From Coq Require Import List ZArith Arith Bool Lia.
From Verif Require Import Util EnumModel EnumPure.
Import ListNotations.

Lemma fset_eq {A} (f : nat -> A) i v : fset f i v i = v.
Proof. unfold fset. now rewrite Nat.eqb_refl. Qed.
Lemma fset_neq {A} (f : nat -> A) i v j : j <> i -> fset f i v j = f j.
Proof. unfold fset. intros H. destruct (Nat.eqb_spec j i); congruence. Qed.
Lemma fset2_eq {A} (f : nat -> nat -> A) i j v : fset2 f i j v i j = v.
Proof. unfold fset2. now rewrite !Nat.eqb_refl. Qed.
Lemma fset2_row {A} (f : nat -> nat -> A) i j v a b : a <> i -> fset2 f i j v a b = f a b.
Proof. unfold fset2. intros H. destruct (Nat.eqb_spec a i); congruence. Qed.
Lemma fset2_col {A} (f : nat -> nat -> A) i j v a b : b <> j -> fset2 f i j v a b = f a b.
Proof. unfold fset2. intros H. destruct (Nat.eqb_spec a i); auto. destruct (Nat.eqb_spec b j); congruence. Qed.

Section Refine.
Context (o : eops) {EV : Type}.
Notation E := (E o).
Notation gst := (gst o EV).
Notation est := (est o EV).
Variable evalS : list Z -> E -> E -> EV -> EV * E.
Variable evalSub : nat -> list Z -> E -> EV -> EV.
Variable c : ecfg o.
Variable rst : list Z -> nat -> option (option (list Z * E)).
Notation ke := (c_kend c).

(** the coordinates j, j+1, ..., k_end-1 *)
Definition suf (s : est) (j : nat) : list Z := map (s_x s) (seq j (ke - j)).
Definition tlof (s : est) : list Z := map (s_x s) (seq ke (c_d c - ke)).

Definition fresh (s : est) (i j : nat) : Prop := s_cps s i j = csum o c i j (suf s j).
Definition alok (s : est) (L : nat) : Prop :=
  forall j, L <= j < ke -> s_alpha s j = e_alpha o (s_x s j) (cen o c j (suf s (S j))).

(** the invariant of the lazily recomputed centre sums *)
Record cinv (s : est) (kk : nat) : Prop := {
  ci_base : forall i, i < ke -> s_cps s i ke = c_cps0 c i;
  ci_cpb : forall m, m <= kk -> m <= s_cpb s m < ke;
  ci_fresh : forall i j, i < kk -> j < ke -> (forall m, i < m <= kk -> s_cpb s m < j) -> fresh s i j }.

(** what a run on the levels below L leaves alone *)
Record frame (L : nat) (s s' : est) : Prop := {
  fr_x : forall j, L <= j -> s_x s' j = s_x s j;
  fr_dx : forall j, L <= j -> s_dx s' j = s_dx s j;
  fr_ddx : forall j, L <= j -> s_ddx s' j = s_ddx s j;
  fr_ce : forall j, L <= S j -> s_center s' j = s_center s j;
  fr_pd : forall j, L <= S j -> s_partdist s' j = s_partdist s j;
  fr_al : forall j, L <= j -> s_alpha s' j = s_alpha s j;
  fr_cpb : forall j, L <= j -> s_cpb s' j = s_cpb s j;
  fr_row : forall i j, L <= S i -> s_cps s' i j = s_cps s i j }.

Lemma frame_refl L s : frame L s s.
Proof. constructor; auto. Qed.
Lemma frame_trans L s1 s2 s3 : frame L s1 s2 -> frame L s2 s3 -> frame L s1 s3.
Proof.
  intros F G. constructor; intros.
  - rewrite (fr_x _ _ _ G), (fr_x _ _ _ F); auto.
  - rewrite (fr_dx _ _ _ G), (fr_dx _ _ _ F); auto.
  - rewrite (fr_ddx _ _ _ G), (fr_ddx _ _ _ F); auto.
  - rewrite (fr_ce _ _ _ G), (fr_ce _ _ _ F); auto.
  - rewrite (fr_pd _ _ _ G), (fr_pd _ _ _ F); auto.
  - rewrite (fr_al _ _ _ G), (fr_al _ _ _ F); auto.
  - rewrite (fr_cpb _ _ _ G), (fr_cpb _ _ _ F); auto.
  - rewrite (fr_row _ _ _ G), (fr_row _ _ _ F); auto.
Qed.
Lemma frame_le L L' s s' : L <= L' -> frame L s s' -> frame L' s s'.
Proof.
  intros H F. constructor; intros.
  - apply (fr_x _ _ _ F); lia.
  - apply (fr_dx _ _ _ F); lia.
  - apply (fr_ddx _ _ _ F); lia.
  - apply (fr_ce _ _ _ F); lia.
  - apply (fr_pd _ _ _ F); lia.
  - apply (fr_al _ _ _ F); lia.
  - apply (fr_cpb _ _ _ F); lia.
  - apply (fr_row _ _ _ F); lia.
Qed.

Lemma suf_cons s j : j < ke -> suf s j = s_x s j :: suf s (S j).
Proof. intros H. unfold suf. replace (ke - j) with (S (ke - S j)) by lia. reflexivity. Qed.
Lemma suf_nil s : suf s ke = [].
Proof. unfold suf. now rewrite Nat.sub_diag. Qed.
Lemma suf_ext s s' j : (forall a, j <= a -> s_x s' a = s_x s a) -> suf s' j = suf s j.
Proof. intros H. unfold suf. apply map_ext_in. intros a Ha. apply in_seq in Ha. apply H. lia. Qed.
Lemma tl_ext s s' : (forall a, ke <= a -> s_x s' a = s_x s a) -> tlof s' = tlof s.
Proof. intros H. unfold tlof. apply map_ext_in. intros a Ha. apply in_seq in Ha. apply H. lia. Qed.
Lemma csum_nil i j : csum o c i j [] = c_cps0 c i.
Proof. reflexivity. Qed.

(** ** one descent *)
Lemma cps_fill_row (s : est) row cnt C i j : i <> row -> cps_fill o c s row cnt C i j = C i j.
Proof.
  revert C. induction cnt; intros C H; cbn [cps_fill]; auto.
  rewrite IHcnt by auto. now apply fset2_row.
Qed.
Lemma cps_fill_above (s : est) row : forall cnt C j, row + cnt < j -> cps_fill o c s row cnt C row j = C row j.
Proof.
  induction cnt; intros C j H; cbn [cps_fill]; auto.
  rewrite IHcnt by lia. apply fset2_col. lia.
Qed.
Lemma cps_fill_ok (s : est) row : forall cnt (C : nat -> nat -> E), row + cnt < ke ->
  C row (S (row + cnt)) = csum o c row (S (row + cnt)) (suf s (S (row + cnt))) ->
  alok s (S row) ->
  forall j, row < j <= row + cnt -> cps_fill o c s row cnt C row j = csum o c row j (suf s j).
Proof.
  induction cnt; intros C H HC HA j Hj; [lia|].
  cbn [cps_fill].
  assert (X : cps_entry o c s C row (row + S cnt) = csum o c row (row + S cnt) (suf s (row + S cnt))).
  { rewrite (suf_cons s (row + S cnt)) by lia. cbn [csum]. unfold cps_entry.
    rewrite HC. destruct (c_dual c); auto. rewrite HA by lia. reflexivity. }
  destruct (Nat.eq_dec j (row + S cnt)) as [->|Hne].
  - rewrite cps_fill_above by lia. now rewrite fset2_eq.
  - apply IHcnt; try lia; auto.
    replace (S (row + cnt)) with (row + S cnt) by lia. now rewrite fset2_eq.
Qed.

Lemma fresh_ext s s' i j : (forall a, j <= a -> s_x s' a = s_x s a) -> s_cps s' i j = s_cps s i j -> fresh s i j -> fresh s' i j.
Proof. unfold fresh. intros Hx Hc Hf. rewrite Hc, Hf. f_equal. symmetry. now apply suf_ext. Qed.

Lemma alok_ext s s' L : (forall a, L <= a -> s_x s' a = s_x s a) -> (forall a, L <= a < ke -> s_alpha s' a = s_alpha s a) ->
  alok s L -> alok s' L.
Proof.
  intros Hx Ha H j Hj. rewrite Ha, Hx by lia. rewrite H by lia. do 2 f_equal. symmetry. apply suf_ext. intros; apply Hx; lia.
Qed.

(** state before the recursive call on the levels below kk = S p *)
Record ready (s : est) (p : nat) (nd : E) : Prop := {
  rd_inv : cinv s p;
  rd_row : forall j, S p <= j < ke -> fresh s p j;
  rd_cpb : s_cpb s (S p) = S p;
  rd_al : alok s (S p);
  rd_ce : s_center s p = cen o c p (suf s (S p));
  rd_pd : s_partdist s p = nd;
  rd_x : s_x s p = e_round o (s_center s p);
  rd_dx : s_dx s p = dx0 o (s_center s p) (s_x s p);
  rd_ddx : s_ddx s p = dx0 o (s_center s p) (s_x s p) }.

Lemma fresh_base s i : s_cps s i ke = c_cps0 c i -> fresh s i ke.
Proof. intros H. unfold fresh. now rewrite suf_nil. Qed.

(** [descend_full] touches s_cpb at level kk, so its frame is stated for S kk *)
Lemma descend_full_frame (s : est) p nd : frame (S (S p)) s (descend_full o c p nd s).
Proof.
  constructor; intros; cbn; rewrite ?fset_neq by lia; auto.
  apply cps_fill_row. lia.
Qed.
Lemma descend_full_x (s : est) p nd a : S p <= a -> s_x (descend_full o c p nd s) a = s_x s a.
Proof. intros H. cbn. now rewrite fset_neq by lia. Qed.

Lemma descend_full_ready (s : est) p nd : S p < ke -> cinv s (S p) -> alok s (S p) -> ready (descend_full o c p nd s) p nd.
Proof.
  intros Hp [Hb Hc Hf] HA.
  assert (SX : forall j, S p <= j -> suf (descend_full o c p nd s) j = suf s j).
  { intros j Hj. apply suf_ext. intros a Ha. apply descend_full_x. lia. }
  assert (B : S p <= s_cpb s (S p) < ke) by (apply Hc; lia).
  assert (ROW : forall j, S p <= j < ke -> s_cps (descend_full o c p nd s) p j = csum o c p j (suf s j)).
  { intros j Hj. cbn [s_cps descend_full].
    destruct (le_lt_dec j (s_cpb s (S p))) as [Hle|Hgt].
    - apply cps_fill_ok; auto; try lia.
      replace (p + (s_cpb s (S p) - p)) with (s_cpb s (S p)) by lia.
      destruct (Nat.eq_dec (S (s_cpb s (S p))) ke) as [e|ne].
      + rewrite e. rewrite suf_nil. cbn [csum]. apply Hb. lia.
      + apply Hf; try lia. intros m Hm. assert (m = S p) by lia. subst m. lia.
    - rewrite cps_fill_above by lia. apply Hf; try lia. intros m Hm. assert (m = S p) by lia. subst m. lia. }
  constructor.
  - constructor.
    + intros i Hi. cbn. destruct (Nat.eq_dec i p) as [->|Hne].
      * rewrite cps_fill_above by lia. auto.
      * rewrite cps_fill_row by auto. auto.
    + intros m Hm. cbn. rewrite (fset_neq _ (S p)) by lia.
      destruct (Nat.eq_dec m p) as [->|Hne].
      * rewrite fset_eq. assert (p <= s_cpb s p < ke) by (apply Hc; lia). lia.
      * rewrite fset_neq by auto. apply Hc. lia.
    + intros i j Hi Hj Hm.
      assert (Hj' : s_cpb s (S p) < j /\ s_cpb s p < j).
      { specialize (Hm p ltac:(lia)). cbn in Hm. rewrite (fset_neq _ (S p)) in Hm by lia.
        rewrite fset_eq in Hm. lia. }
      unfold fresh. rewrite SX by lia. cbn [s_cps descend_full].
      rewrite cps_fill_row by lia. apply Hf; try lia.
      intros m Hm2. destruct (Nat.eq_dec m (S p)) as [->|]; [lia|].
      destruct (Nat.eq_dec m p) as [->|]; [lia|].
      specialize (Hm m ltac:(lia)). cbn in Hm. rewrite !fset_neq in Hm by lia. auto.
  - intros j Hj. unfold fresh. rewrite SX by lia. now apply ROW.
  - cbn. apply fset_eq.
  - apply (alok_ext s); auto. intros a Ha. now apply descend_full_x.
  - rewrite SX by lia. transitivity (s_cps (descend_full o c p nd s) p (S p)).
    + cbn. now rewrite fset_eq.
    + rewrite ROW by lia. reflexivity.
  - cbn. apply fset_eq.
  - cbn. now rewrite !fset_eq.
  - cbn. now rewrite !fset_eq.
  - cbn. now rewrite !fset_eq.
Qed.

(** state between two visits of level kk = S p *)
Record between (s : est) (p : nat) : Prop := {
  bt_inv : cinv s (S p);
  bt_cpb : s_cpb s (S p) = S p;
  bt_al : alok s (S p) }.

Lemma descend_one_frame (s : est) p nd : frame (S (S p)) s (descend_one o c p nd s).
Proof.
  constructor; intros; cbn; rewrite ?fset_neq by lia; auto. apply fset2_row. lia.
Qed.
Lemma descend_one_x (s : est) p nd a : S p <= a -> s_x (descend_one o c p nd s) a = s_x s a.
Proof. intros H. cbn. now rewrite fset_neq by lia. Qed.
Lemma descend_one_cpb (s : est) p nd a : S p <= a -> s_cpb (descend_one o c p nd s) a = s_cpb s a.
Proof. intros H. cbn. now rewrite fset_neq by lia. Qed.

Lemma descend_one_ready (s : est) p nd : S p < ke -> between s p -> ready (descend_one o c p nd s) p nd.
Proof.
  intros Hp [[Hb Hc Hf] Hk HA].
  assert (Hr : forall j, S (S p) <= j < ke -> fresh s p j).
  { intros j Hj. apply Hf; try lia. intros m Hm. assert (m = S p) by lia. subst m. lia. }
  assert (SX : forall j, S p <= j -> suf (descend_one o c p nd s) j = suf s j).
  { intros j Hj. apply suf_ext. intros a Ha. apply descend_one_x. lia. }
  assert (ROW : forall j, S p <= j < ke -> s_cps (descend_one o c p nd s) p j = csum o c p j (suf s j)).
  { intros j Hj. cbn [s_cps descend_one]. destruct (Nat.eq_dec j (S p)) as [->|Hne].
    - rewrite fset2_eq. rewrite (suf_cons s (S p)) by lia. cbn [csum]. unfold cps_entry.
      assert (X : s_cps s p (S (S p)) = csum o c p (S (S p)) (suf s (S (S p)))).
      { destruct (Nat.eq_dec (S (S p)) ke) as [e|ne].
        - rewrite e, suf_nil. apply Hb. lia.
        - apply Hr. lia. }
      rewrite X. destruct (c_dual c); auto. rewrite HA by lia. reflexivity.
    - rewrite fset2_col by auto. apply Hr. lia. }
  constructor.
  - constructor.
    + intros i Hi. cbn. rewrite fset2_col by lia. auto.
    + intros m Hm. cbn. destruct (Nat.eq_dec m p) as [->|Hne].
      * rewrite fset_eq. assert (p <= s_cpb s p < ke) by (apply Hc; lia). lia.
      * rewrite fset_neq by auto. apply Hc. lia.
    + intros i j Hi Hj Hm.
      assert (Hj' : S p < j /\ s_cpb s p < j).
      { specialize (Hm p ltac:(lia)). cbn [s_cpb descend_one] in Hm. rewrite fset_eq in Hm. lia. }
      unfold fresh. rewrite SX by lia. cbn [s_cps descend_one]. rewrite fset2_row by lia.
      apply Hf; try lia. intros m Hm2. destruct (Nat.eq_dec m (S p)) as [->|]; [lia|]. destruct (Nat.eq_dec m p) as [->|]; [lia|].
      specialize (Hm m ltac:(lia)). cbn in Hm. rewrite !fset_neq in Hm by lia. auto.
  - intros j Hj. unfold fresh. rewrite SX by lia. now apply ROW.
  - rewrite descend_one_cpb by lia. auto.
  - apply (alok_ext s); auto. intros a Ha. now apply descend_one_x.
  - rewrite SX by lia. transitivity (s_cps (descend_one o c p nd s) p (S p)).
    + cbn [s_center descend_one s_cps]. now rewrite fset_eq.
    + rewrite ROW by lia. reflexivity.
  - cbn. apply fset_eq.
  - cbn. now rewrite !fset_eq.
  - cbn. now rewrite !fset_eq.
  - cbn. now rewrite !fset_eq.
Qed.

(** after the recursive call on the levels below kk = S p, when x[kk] and alpha[kk] change *)
Lemma cinv_up (s s' s'' : est) p nd : S p < ke ->
  ready s p nd -> frame (S p) s s' -> cinv s' p ->
  (forall a, S p < a -> s_x s'' a = s_x s' a) -> s_cps s'' = s_cps s' -> s_cpb s'' = s_cpb s' ->
  cinv s'' (S p) /\ s_cpb s'' (S p) = S p.
Proof.
  intros Hp R F [Hb Hc Hf] Hx Hcps Hcpb.
  assert (K : s_cpb s'' (S p) = S p).
  { rewrite Hcpb. rewrite (fr_cpb _ _ _ F) by lia. apply (rd_cpb _ _ _ R). }
  split; auto. constructor.
  - intros i Hi. rewrite Hcps. auto.
  - intros m Hm. destruct (Nat.eq_dec m (S p)) as [->|]; [lia|]. rewrite Hcpb. apply Hc; lia.
  - intros i j Hi Hj Hm. assert (S p < j) by (rewrite <- K; apply Hm; lia).
    destruct (Nat.eq_dec i p) as [->|Hne].
    + apply (fresh_ext s).
      * intros a Ha. rewrite Hx by lia. apply (fr_x _ _ _ F). lia.
      * rewrite Hcps. apply (fr_row _ _ _ F). lia.
      * apply (rd_row _ _ _ R). lia.
    + apply (fresh_ext s').
      * intros a Ha. rewrite Hx by lia. auto.
      * now rewrite Hcps.
      * apply Hf; try lia. intros m Hm2. rewrite <- Hcpb. apply Hm. lia.
Qed.

Hypothesis Hkd : c_kend c <= c_d c.
Lemma vec_split x k : k <= c_d c -> vec_of o c x = map x (seq 0 k) ++ map x (seq k (c_d c - k)).
Proof.
  intros H. unfold vec_of. rewrite <- map_app. rewrite <- seq_app. do 2 f_equal. lia.
Qed.
Lemma vec_suf s L : L <= ke -> map (s_x s) (seq L (c_d c - L)) = suf s L ++ tlof s.
Proof.
  intros H. unfold suf, tlof. rewrite <- map_app. f_equal.
  replace (c_d c - L) with ((ke - L) + (c_d c - ke)) by lia.
  rewrite seq_app. do 2 f_equal. lia.
Qed.
Lemma vec_skip s L : L <= ke -> skipn L (vec_of o c (s_x s)) = suf s L ++ tlof s.
Proof.
  intros H. rewrite (vec_split _ L) by lia. rewrite skipn_app, map_length, seq_length.
  rewrite skipn_all2 by (rewrite map_length, seq_length; lia).
  rewrite Nat.sub_diag. cbn [skipn app]. now apply vec_suf.
Qed.
Lemma vec_zero s : vec_of o c (s_x s) = suf s 0 ++ tlof s.
Proof. rewrite <- (vec_skip s 0) by lia. reflexivity. Qed.

Lemma skipn_repeat_app {A} (a : A) k l : skipn k (repeat a k ++ l) = l.
Proof. rewrite skipn_app, repeat_length, Nat.sub_diag, skipn_all2 by (rewrite repeat_length; lia). reflexivity. Qed.
Lemma gsubmaybe_eq kk s v nd (g : gst) : kk < ke -> v = s_x s kk :: suf s (S kk) ++ tlof s ->
  gsubmaybe o evalSub c kk (vec_of o c (s_x s)) nd g = gsubmaybe o evalSub c kk (repeat 0%Z kk ++ v) nd g.
Proof.
  intros H ->. unfold gsubmaybe.
  rewrite (vec_skip s kk) by lia. rewrite skipn_repeat_app. rewrite suf_cons by lia. reflexivity.
Qed.

Lemma do_reset_ok s nd depth sfx : S depth <= ke -> sfx = suf s (S depth) ->
  match preset o evalS c rst (tlof s) nd depth sfx (s_g s) with
  | None => do_reset o evalS c rst nd depth s = None
  | Some g => exists s', do_reset o evalS c rst nd depth s = Some s' /\ s_g s' = g /\
      (forall a, depth < a -> s_x s' a = s_x s a) /\ s_dx s' = s_dx s /\ s_ddx s' = s_ddx s /\
      s_center s' = s_center s /\ s_partdist s' = s_partdist s /\ s_alpha s' = s_alpha s /\
      s_cps s' = s_cps s /\ s_cpb s' = s_cpb s
  end.
Proof.
  intros H ->. unfold preset, do_reset. rewrite vec_suf by lia.
  destruct (rst (suf s (S depth) ++ tlof s) depth) as [[[sol sd]|]|]; auto.
  - destruct (e_lt o (e_add o sd nd) (g_bounds (s_g s) 0)).
    + eexists. split; [reflexivity|]. repeat split; cbn [s_g setg s_x]; auto.
      * f_equal. rewrite (vec_split _ (S depth)) by lia. f_equal.
        -- apply map_ext_in. intros a Ha. apply in_seq in Ha. destruct (Nat.leb_spec a depth); auto; lia.
        -- rewrite <- vec_suf by lia. apply map_ext_in. intros a Ha. apply in_seq in Ha. destruct (Nat.leb_spec a depth); auto; lia.
      * intros a Ha. destruct (Nat.leb_spec a depth); auto; lia.
    + eexists. split; [reflexivity|]. repeat split; auto.
  - eexists. split; [reflexivity|]. repeat split; auto.
Qed.

Notation plevR := (plev o evalS evalSub c rst true).
Notation ploopR := (ploop o evalS evalSub c rst true).

Definition goodres (L : nat) (s : est) (po : option gst) (mo : option est) (kk : nat) : Prop :=
  match po with
  | None => mo = None
  | Some g => exists s', mo = Some s' /\ s_g s' = g /\ frame L s s' /\ cinv s' kk
  end.

(** what the recursion below level kk does from the state [s] *)
Definition pbelow (fuel kk : nat) (s : est) : option gst :=
  match kk with
  | O => Some (s_g s)
  | S p => plevR (tlof s) fuel (S p) (suf s (S p)) (s_partdist s p) (s_x s p) (s_dx s p) (s_ddx s p) (s_g s)
  end.
Definition loopstart (s : est) (kk : nat) : Prop :=
  match kk with O => cinv s 0 | S p => exists nd, ready s p nd end.

Definition IHrec (fuel L : nat) : Prop := forall kk s, L = S kk -> L <= ke -> cinv s kk -> alok s (S kk) ->
  s_center s kk = cen o c kk (suf s (S kk)) ->
  goodres (S kk) s (plevR (tlof s) fuel (S kk) (suf s (S kk)) (s_partdist s kk) (s_x s kk) (s_dx s kk) (s_ddx s kk) (s_g s))
    (enum_rec o evalS evalSub c rst fuel (S kk) s) kk.

Lemma step_x_facts kk (s : est) :
  (forall a, a <> kk -> s_x (step_x o c kk s) a = s_x s a) /\
  (forall a, a <> kk -> s_dx (step_x o c kk s) a = s_dx s a) /\
  (forall a, a <> kk -> s_ddx (step_x o c kk s) a = s_ddx s a) /\
  s_center (step_x o c kk s) = s_center s /\ s_partdist (step_x o c kk s) = s_partdist s /\
  s_alpha (step_x o c kk s) = s_alpha s /\ s_cps (step_x o c kk s) = s_cps s /\ s_cpb (step_x o c kk s) = s_cpb s /\
  s_g (step_x o c kk s) = s_g s /\
  pstep o c (s_partdist s kk) (s_x s kk) (s_dx s kk) (s_ddx s kk) =
    (s_x (step_x o c kk s) kk, s_dx (step_x o c kk s) kk, s_ddx (step_x o c kk s) kk).
Proof.
  unfold step_x, pstep. destruct (negb (c_svp c) || negb (is0 o (s_partdist s kk)));
  cbn; rewrite ?fset_eq; repeat split; intros; rewrite ?fset_neq by auto; auto.
Qed.

Lemma rec_loop_ok fuel kk : kk < ke -> (forall p, kk = S p -> IHrec fuel kk) ->
  forall n (s : est) sfx, sfx = suf s (S kk) -> loopstart s kk -> alok s (S kk) -> s_center s kk = cen o c kk sfx ->
  goodres (S kk) s
    (match pbelow fuel kk s with
     | None => None
     | Some g => let '(x', dx', ddx') := pstep o c (s_partdist s kk) (s_x s kk) (s_dx s kk) (s_ddx s kk) in
                 ploopR (tlof s) (plevR (tlof s) fuel kk) kk sfx (s_partdist s kk) n false x' dx' ddx' g
     end)
    (rec_loop o evalS c (enum_rec o evalS evalSub c rst fuel kk) kk n s) kk.
Proof.
  intros Hkk IH. induction n; intros s sfx Hs HL HA Hce.
  { unfold goodres. cbn [rec_loop ploop]. destruct (pbelow fuel kk s); auto. destruct (pstep _ _ _ _ _ _) as [[? ?] ?]. auto. }
  cbn [rec_loop].
  assert (Bel : match pbelow fuel kk s with
                | None => enum_rec o evalS evalSub c rst fuel kk s = None
                | Some g => exists s', enum_rec o evalS evalSub c rst fuel kk s = Some s' /\ s_g s' = g /\ frame kk s s' /\
                     match kk with O => cinv s' 0 | S p => cinv s' p end
                end).
  { destruct kk as [|p].
    - cbn [pbelow enum_rec]. exists s. split; [auto|]. split; [auto|]. split; [apply frame_refl|exact HL].
    - destruct HL as [nd R]. cbn [pbelow]. 
      apply (IH p eq_refl p s); auto; try lia; apply R. }
  destruct (pbelow fuel kk s) as [g|]; [|now rewrite Bel].
  destruct Bel as (s' & -> & Hg & F & CI).
  destruct (step_x_facts kk s') as (X1 & X2 & X3 & X4 & X5 & X6 & X7 & X8 & X9 & X10).
  rewrite (fr_pd _ _ _ F), (fr_x _ _ _ F), (fr_dx _ _ _ F), (fr_ddx _ _ _ F) in X10 by lia. rewrite X10.
  set (s3 := step_x o c kk s') in *.
  cbn [ploop].
  assert (Ce3 : s_center s3 kk = cen o c kk sfx).
  { rewrite X4, (fr_ce _ _ _ F) by lia. auto. }
  assert (Pd3 : s_partdist s3 kk = s_partdist s kk).
  { rewrite X5, (fr_pd _ _ _ F) by lia. auto. }
  assert (F3 : frame (S kk) s s3).
  { constructor; intros.
    - rewrite X1, (fr_x _ _ _ F) by lia; auto.
    - rewrite X2, (fr_dx _ _ _ F) by lia; auto.
    - rewrite X3, (fr_ddx _ _ _ F) by lia; auto.
    - rewrite X4, (fr_ce _ _ _ F) by lia; auto.
    - rewrite X5, (fr_pd _ _ _ F) by lia; auto.
    - rewrite X6, (fr_al _ _ _ F) by lia; auto.
    - rewrite X8, (fr_cpb _ _ _ F) by lia; auto.
    - rewrite X7, (fr_row _ _ _ F) by lia; auto. }
  assert (CI3 : cinv s3 kk /\ (kk <> 0 -> s_cpb s3 kk = kk)).
  { destruct kk as [|p].
    - split; [|congruence]. destruct CI as [Hb Hc Hf]. constructor.
      + intros. rewrite X7. auto.
      + intros. rewrite X8. auto.
      + intros. lia.
    - destruct HL as [nd R]. destruct (cinv_up s s' s3 p nd) as [A B]; auto.
      intros a Ha. apply X1. lia. }
  destruct CI3 as [CI3 K3].
  rewrite Ce3, Pd3. rewrite X9, Hg.
  destruct (negb (e_le o (e_dist o (s_partdist s kk) (e_alpha o (s_x s3 kk) (cen o c kk sfx)) (c_rdiag c kk)) (g_bounds g kk))) eqn:Hle.
  { unfold goodres. exists s3. split; [auto|]. split; [congruence|]. split; [exact F3|exact CI3]. }
  set (a2 := e_alpha o (s_x s3 kk) (cen o c kk sfx)) in *.
  set (nd2 := e_dist o (s_partdist s kk) a2 (c_rdiag c kk)) in *.
  set (s4 := visit o kk a2 s3).
  assert (S3 : suf s3 (S kk) = sfx).
  { rewrite Hs. apply suf_ext. intros a Ha. apply (fr_x _ _ _ F3). lia. }
  assert (S4 : suf s4 (S kk) = sfx) by exact S3.
  assert (T4 : tlof s4 = tlof s).
  { apply tl_ext. intros a Ha. apply (fr_x _ _ _ F3). lia. }
  assert (F4 : frame (S kk) s s4).
  { eapply frame_trans; [exact F3|]. constructor; intros; auto. cbn. rewrite fset_neq by lia. auto. }
  assert (G4 : s_g s4 = gvisit o kk g) by (cbn; congruence).
  assert (AL4 : alok s4 kk).
  { intros j Hj. destruct (Nat.eq_dec j kk) as [->|Hne].
    - rewrite S4. cbn. now rewrite fset_eq.
    - cbn. rewrite fset_neq by auto. rewrite (fr_al _ _ _ F3), (fr_x _ _ _ F3) by lia. rewrite HA by lia.
      do 2 f_equal. symmetry. apply suf_ext. intros a Ha. apply (fr_x _ _ _ F4). lia. }
  destruct kk as [|p].
  - (* leaf *)
    cbn [pnode subany negb orb].
    set (s5 := setg o _ s4).
    assert (G5 : s_g s5 = gleaf o evalS c (s_x s3 0 :: sfx ++ tlof s) nd2 (gvisit o 0 g)).
    { cbn [s5 setg s_g]. rewrite G4. f_equal. rewrite vec_zero. rewrite (suf_cons s4 0) by lia. rewrite S4, T4. reflexivity. }
    assert (F5 : frame 1 s s5) by (eapply frame_trans; [exact F4|]; constructor; auto).
    specialize (IHn s5 sfx).
    cbn [pbelow] in IHn. rewrite G5 in IHn.
    change (s_partdist s5 0) with (s_partdist s3 0) in IHn. rewrite Pd3 in IHn.
    change (s_x s5 0) with (s_x s3 0) in IHn. change (s_dx s5 0) with (s_dx s3 0) in IHn. change (s_ddx s5 0) with (s_ddx s3 0) in IHn.
    destruct (pstep o c (s_partdist s 0) (s_x s3 0) (s_dx s3 0) (s_ddx s3 0)) as [[x'' dx''] ddx''] eqn:Epst.
    change (tlof s5) with (tlof s4) in IHn. rewrite T4 in IHn.
    unfold goodres in IHn |- *.
    cbn [orb]. 
    match type of IHn with _ -> _ -> _ -> _ -> match ?p with _ => _ end => destruct p eqn:Hp end.
    + destruct IHn as (sf & A & B & C & D); auto.
      * constructor. { intros; apply CI3; auto. } { intros; apply CI3; auto. } { intros; lia. }
      * apply (alok_ext s4); auto; intros j Hj; apply AL4; lia.
      * exists sf. split; [exact A|]. split; [exact B|]. split; auto. eapply frame_trans; eauto.
    + apply IHn; auto.
      * constructor. { intros; apply CI3; auto. } { intros; apply CI3; auto. } { intros; lia. }
      * apply (alok_ext s4); auto; intros j Hj; apply AL4; lia.
  - cbn [pnode subany negb orb].
    rewrite ?andb_false_r. cbn [andb].
    set (s5 := descend_one o c p nd2 s4).
    assert (BT : between s4 p).
    { constructor.
      - destruct CI3 as [Hb Hc Hf]. constructor; auto.
      - cbn. apply K3. lia.
      - exact AL4. }
    assert (R5 : ready s5 p nd2) by (apply descend_one_ready; auto).
    assert (X5' : forall a, S p <= a -> s_x s5 a = s_x s3 a) by (intros a Ha; unfold s5; rewrite descend_one_x by lia; reflexivity).
    assert (SP : suf s5 (S p) = s_x s3 (S p) :: sfx).
    { rewrite suf_cons by lia. rewrite X5' by lia. f_equal. rewrite <- S3. apply suf_ext. intros; apply X5'; lia. }
    assert (F5 : frame (S (S p)) s s5) by (eapply frame_trans; [exact F4|]; apply descend_one_frame).
    assert (T5 : tlof s5 = tlof s) by (rewrite <- T4; apply tl_ext; intros a Ha; apply X5'; lia).
    assert (S5 : suf s5 (S (S p)) = sfx) by (rewrite <- S3; apply suf_ext; intros a Ha; apply X5'; lia).
    specialize (IHn s5 sfx).
    cbn [pbelow] in IHn.
    rewrite SP, T5, (rd_pd _ _ _ R5), (rd_x _ _ _ R5), (rd_dx _ _ _ R5), (rd_ddx _ _ _ R5), (rd_x _ _ _ R5), (rd_ce _ _ _ R5), SP in IHn.
    assert (G5 : s_g s5 = gvisit o (S p) g) by exact G4.
    rewrite G5 in IHn.
    assert (Pd5 : s_partdist s5 (S p) = s_partdist s (S p)) by (apply (fr_pd _ _ _ F5); lia).
    rewrite Pd5, X5' in IHn by lia.
    assert (D5 : s_dx s5 (S p) = s_dx s3 (S p)) by (cbn; rewrite fset_neq by lia; auto).
    assert (DD5 : s_ddx s5 (S p) = s_ddx s3 (S p)) by (cbn; rewrite fset_neq by lia; auto).
    rewrite D5, DD5 in IHn.
    cbv zeta. unfold goodres in IHn |- *.
    assert (P1 : loopstart s5 (S p)) by (exists nd2; auto).
    assert (P2 : alok s5 (S (S p))).
    { apply (alok_ext s4); auto. { intros a Ha. apply X5'. lia. } intros j Hj; apply AL4; lia. }
    assert (P3 : s_center s5 (S p) = cen o c (S p) sfx).
    { cbn. rewrite fset_neq by lia. exact Ce3. }
    specialize (IHn (eq_sym S5) P1 P2 P3).
    destruct (plevR (tlof s) fuel (S p) (s_x s3 (S p) :: sfx) nd2 _ _ _ _) as [g'|]; cbn [option_map].
    + destruct (pstep o c (s_partdist s (S p)) (s_x s3 (S p)) (s_dx s3 (S p)) (s_ddx s3 (S p))) as [[x'' dx''] ddx''] eqn:Epst.
      match type of IHn with match ?p with _ => _ end => destruct p eqn:Hp end; auto.
      destruct IHn as (sf & A & B & C & D).
      exists sf. split; [exact A|]. split; [exact B|]. split; auto. eapply frame_trans; eauto.
    + auto.
Qed.

Theorem enum_rec_ok fuel : forall L, IHrec fuel L.
Proof.
  induction L as [|kk0 IH]; intros kk s HL Hke HC HA Hce; [lia|].
  injection HL as ->.
  cbn [plev ploop enum_rec]. rewrite Hce.
  set (sfx := suf s (S kk)) in *.
  set (a := e_alpha o (s_x s kk) (cen o c kk sfx)) in *.
  set (nd := e_dist o (s_partdist s kk) a (c_rdiag c kk)) in *.
  destruct (negb (e_le o nd (g_bounds (s_g s) kk))) eqn:Hle.
  { exists s. split; [auto|]. split; [auto|]. split; [apply frame_refl|exact HC]. }
  set (s1 := visit o kk a s).
  set (s2 := setg o (gsubmaybe o evalSub c kk (vec_of o c (s_x s1)) nd (s_g s1)) s1).
  assert (F2 : frame (S kk) s s2).
  { constructor; intros; auto. cbn. rewrite fset_neq by lia. auto. }
  assert (S2 : suf s2 (S kk) = sfx) by reflexivity.
  assert (T2 : tlof s2 = tlof s) by reflexivity.
  assert (G2 : s_g s2 = gsubmaybe o evalSub c kk (repeat 0%Z kk ++ s_x s kk :: sfx ++ tlof s) nd (gvisit o kk (s_g s))).
  { cbn [s2 setg s_g]. apply gsubmaybe_eq; auto; lia. }
  assert (AL2 : alok s2 kk).
  { intros j Hj. destruct (Nat.eq_dec j kk) as [->|Hne].
    - cbn. rewrite fset_eq. reflexivity.
    - cbn. rewrite fset_neq by auto. rewrite HA by lia. reflexivity. }
  assert (CI2 : cinv s2 kk) by (destruct HC as [Hb Hc Hf]; constructor; auto).
  destruct kk as [|p].
  - cbn [pnode subany negb orb].
    rewrite <- G2.
    set (s3 := setg o (gleaf o evalS c (vec_of o c (s_x s2)) nd (s_g s2)) s2).
    pose proof (rec_loop_ok fuel 0 ltac:(lia) ltac:(intros; discriminate) fuel s3 sfx) as LOOP.
    cbn [pbelow] in LOOP.
    assert (G3 : s_g s3 = gleaf o evalS c (s_x s 0 :: sfx ++ tlof s) nd (s_g s2)).
    { cbn [s3 setg s_g]. f_equal. rewrite vec_zero. rewrite (suf_cons s2 0) by lia. reflexivity. }
    rewrite G3 in LOOP. 
    change (s_partdist s3 0) with (s_partdist s 0) in LOOP.
    change (s_x s3 0) with (s_x s 0) in LOOP. change (s_dx s3 0) with (s_dx s 0) in LOOP. change (s_ddx s3 0) with (s_ddx s 0) in LOOP.
    change (tlof s3) with (tlof s) in LOOP.
    destruct (pstep o c (s_partdist s 0) (s_x s 0) (s_dx s 0) (s_ddx s 0)) as [[x'' dx''] ddx''] eqn:Epst.
    unfold goodres in LOOP |- *.
    assert (P2 : alok s3 1) by (intros j Hj; apply AL2; lia).
    assert (CI3 : cinv s3 0) by (destruct CI2 as [Hb Hc Hf]; constructor; auto).
    specialize (LOOP eq_refl CI3 P2 Hce).
    match type of LOOP with match ?p with _ => _ end => destruct p eqn:Hp end; auto.
    destruct LOOP as (sf & A & B & C & D).
    exists sf. split; [exact A|]. split; [exact B|]. split; auto. eapply frame_trans; [exact F2|]. 
    eapply frame_trans; [|exact C]. constructor; auto.
  - unfold pnode at 1. cbn [subany negb orb]. rewrite <- G2. rewrite ?andb_true_r, ?andb_false_r. cbn [andb].
    destruct (c_reset c && (Z.of_nat (S p) <? c_rdepth c)%Z) eqn:Hres.
    + pose proof (do_reset_ok s2 nd (S p) sfx ltac:(lia) eq_refl) as DR.
      rewrite T2 in DR. destruct (preset o evalS c rst (tlof s) nd (S p) sfx (s_g s2)) as [g|]; cbn [option_map]; auto.
      destruct DR as (s' & A & B & C1 & C2 & C3 & C4 & C5 & C6 & C7 & C8).
      exists s'. split; auto. split; auto. split.
      * eapply frame_trans; [exact F2|]. constructor; intros; try congruence. apply C1. lia.
      * destruct CI2 as [Hb Hc Hf]. constructor.
        -- intros. rewrite C7. auto.
        -- intros. rewrite C8. auto.
        -- intros i j Hi Hj Hm. rewrite C8 in Hm. apply (fresh_ext s2); auto.
           ++ intros b Hb2. apply C1. assert (s_cpb s2 (S p) < j) by (apply Hm; lia). assert (S p <= s_cpb s2 (S p)) by (apply Hc; lia). lia.
           ++ now rewrite C7.
    + set (s3 := descend_full o c p nd s2).
      assert (R3 : ready s3 p nd) by (apply descend_full_ready; auto).
      assert (X3 : forall b, S p <= b -> s_x s3 b = s_x s b) by (intros b Hb; unfold s3; rewrite descend_full_x by lia; reflexivity).
      assert (SP : suf s3 (S p) = s_x s (S p) :: sfx).
      { rewrite suf_cons by lia. rewrite X3 by lia. f_equal. unfold sfx. apply suf_ext. intros; apply X3; lia. }
      assert (T3 : tlof s3 = tlof s) by (apply tl_ext; intros b Hb; apply X3; lia).
      assert (S3 : suf s3 (S (S p)) = sfx) by (apply suf_ext; intros b Hb; apply X3; lia).
      assert (F3 : frame (S (S p)) s s3) by (eapply frame_trans; [exact F2|]; apply descend_full_frame).
      pose proof (rec_loop_ok fuel (S p) ltac:(lia) ltac:(intros p' Hp'; exact IH) fuel s3 sfx (eq_sym S3)) as LOOP.
      cbn [pbelow] in LOOP.
      rewrite SP, T3, (rd_pd _ _ _ R3), (rd_x _ _ _ R3), (rd_dx _ _ _ R3), (rd_ddx _ _ _ R3), (rd_x _ _ _ R3), (rd_ce _ _ _ R3), SP in LOOP.
      assert (G3 : s_g s3 = s_g s2) by reflexivity. rewrite G3 in LOOP.
      assert (Pd3 : s_partdist s3 (S p) = s_partdist s (S p)) by (apply (fr_pd _ _ _ F3); lia).
      rewrite Pd3, X3 in LOOP by lia.
      assert (D3 : s_dx s3 (S p) = s_dx s (S p)) by (cbn; rewrite fset_neq by lia; auto).
      assert (DD3 : s_ddx s3 (S p) = s_ddx s (S p)) by (cbn; rewrite fset_neq by lia; auto).
      rewrite D3, DD3 in LOOP.
      cbv zeta. unfold goodres in LOOP |- *.
      assert (P1 : loopstart s3 (S p)) by (exists nd; auto).
      assert (P2 : alok s3 (S (S p))).
      { apply (alok_ext s2); auto. { intros b Hb. rewrite X3 by lia. reflexivity. } intros j Hj; apply AL2; lia. }
      assert (P3 : s_center s3 (S p) = cen o c (S p) sfx).
      { cbn. rewrite fset_neq by lia. exact Hce. }
      specialize (LOOP P1 P2 P3).
      destruct (plevR (tlof s) fuel (S p) (s_x s (S p) :: sfx) nd _ _ _ _) as [g'|]; cbn [option_map].
      * destruct (pstep o c (s_partdist s (S p)) (s_x s (S p)) (s_dx s (S p)) (s_ddx s (S p))) as [[x'' dx''] ddx''] eqn:Epst.
        match type of LOOP with match ?p with _ => _ end => destruct p eqn:Hp end; auto.
        destruct LOOP as (sf & A & B & C & D).
        exists sf. split; [exact A|]. split; [exact B|]. split; auto. eapply frame_trans; eauto.
      * auto.
Qed.
End Refine.
