(** Enumerator::enum_next in exact arithmetic: what is still to come, step by step. *)
From Coq Require Import List ZArith QArith Qcanon Arith Bool Lia.
From Verif Require Import Util QcUtil EnumModel EnumExact EnumSpec EnumTree EnumLink TopModel.
Import ListNotations.
Local Open Scope Qc_scope.

Lemma ziter_plus n m t : ziter (n + m) t = ziter n (ziter m t).
Proof. induction n; cbn [Nat.add ziter]; congruence. Qed.

Lemma nth_skipn' {A} (l : list A) k n d : nth n (skipn k l) d = nth (k + n) l d.
Proof. revert k. induction l as [|a l IH]; intros [|k]; cbn [skipn Nat.add nth]; auto; destruct n; auto. Qed.

Section TP.
Variables (d : nat) (mu : nat -> nat -> Qc) (r : nat -> Qc) (kmin : Z).
Variables (vle vge : Qc -> Z -> bool) (rnd : Qc -> Z).
Hypothesis Hr : forall i, (i < d)%nat -> 0 < r i.
Hypothesis Hrnd : forall c, Qcz 2 * (Qcz (rnd c) - c) <= 1 /\ Qcz 2 * (c - Qcz (rnd c)) <= 1.

Notation PL w k := (plen d mu r no_target w k).
(** the coordinates x (topenum.h:39) as a list *)
Definition vecx (x : nat -> Z) : list Z := map x (seq 0 d).
Lemma vecx_nth x i : (i < d)%nat -> nth i (vecx x) 0%Z = x i.
Proof.
  intros H. unfold vecx. rewrite (nth_indep _ 0%Z (x 0%nat)) by (rewrite map_length, seq_length; auto).
  rewrite map_nth, seq_nth; auto.
Qed.

(** centre of level k *)
Definition cen (w : list Z) (k : nat) : Qc := - sfrom d (S k) (fun j => Qcz (nth j w 0%Z) * mu j k).
Lemma gcoord_cen w k : gcoord d mu no_target w k = Qcz (nth k w 0%Z) - cen w k.
Proof. rewrite gcoord_eq. unfold cen, no_target. ring. Qed.
Lemma sfrom_ext j f g : (forall l, (j <= l < d)%nat -> f l = g l) -> sfrom d j f = sfrom d j g.
Proof. intros H. apply qsum_ext. intros i Hi. destruct (Nat.leb_spec j i); auto. Qed.
Lemma cen_ext w v k : (forall l, (k < l < d)%nat -> nth l w 0%Z = nth l v 0%Z) -> cen w k = cen v k.
Proof. intros H. unfold cen. f_equal. apply sfrom_ext. intros l Hl. rewrite H by lia. reflexivity. Qed.
Lemma PL_ext w v k : (forall l, (k <= l < d)%nat -> nth l w 0%Z = nth l v 0%Z) -> PL w k = PL v k.
Proof.
  intros H. apply qsum_ext. intros i Hi. destruct (Nat.leb_spec k i); auto. rewrite !gcoord_cen.
  rewrite (cen_ext w v i) by (intros l Hl; apply H; lia). rewrite H by lia. reflexivity.
Qed.

Lemma top_center_cen x k : top_center d mu x k = cen (vecx x) k.
Proof.
  unfold top_center, cen.
  assert (A : forall n j c, (j + n = d)%nat -> (k < j)%nat ->
     fold_left (fun c j => c - Qcz (x j) * mu j k) (rev (seq j n)) c = c - sfrom d j (fun j => Qcz (nth j (vecx x) 0%Z) * mu j k)).
  { induction n; intros j c E L.
    - cbn [seq rev fold_left]. rewrite sfrom_end by lia. ring.
    - cbn [seq rev]. rewrite fold_left_app. cbn [fold_left]. rewrite IHn by lia. rewrite (sfrom_step d j) by lia.
      rewrite vecx_nth by lia. ring. }
  destruct (le_lt_dec d (S k)).
  - replace (d - S k)%nat with 0%nat by lia. cbn [seq rev fold_left]. rewrite sfrom_end by lia. ring.
  - rewrite A by lia. ring.
Qed.

(** the zig-zag triple of a level in the form of EnumExact.v *)
(** value and the two steps of level j (topenum.cpp:93-95) *)
Definition tri (s : tst) (j : nat) : Z * Z * Z := (t_x s j, (- t_ddx s j - t_dx s j)%Z, (- t_ddx s j)%Z).
(** the i-th value from now on of level j, counted as the updates of topenum.cpp:91-104 produce them *)
Definition cand (s : tst) (j i : nat) : Z :=
  if (j <? t_kmax s)%nat then zx (ziter i (tri s j)) else (t_x s j + Z.of_nat i)%Z.
Lemma cand0 s j : cand s j 0 = t_x s j.
Proof. unfold cand, tri, zx. destruct (j <? _)%nat; cbn; lia. Qed.

(** direction of the first step away from the centre (topenum.cpp:77, 93-95) *)
Definition s0 (c : Qc) : Z := if eleb (Qcz (rnd c)) c then 1%Z else (-1)%Z.
(** what holds whenever the loop of topenum.cpp:52 starts a pass *)
Record Inv (s : tst) : Prop := {
  iv_new : t_new s = false;
  iv_k : (t_k s <= t_kmax s)%nat;
  iv_kmax : (t_kmax s < d)%nat;
  iv_zero : forall j, (t_kmax s < j < d)%nat -> t_x s j = 0%Z;
  iv_pos : (0 <= t_x s (t_kmax s))%Z;
  iv_cen : forall j, (t_k s <= j < d)%nat -> t_center s j = cen (vecx (t_x s)) j /\ t_dist s j = PL (vecx (t_x s)) (S j);
  iv_tri : forall j, (t_k s <= j < t_kmax s)%nat ->
     exists n, tri s j = ziter n (rnd (t_center s j), s0 (t_center s j), s0 (t_center s j))
}.

(** w has the current coordinates from level k on (topenum.cpp:80-82) *)
Definition agree (w : list Z) (s : tst) (k : nat) : Prop := forall l, (k <= l < d)%nat -> nth l w 0%Z = t_x s l.
(** strictly after the current value of some level k' or above *)
Definition RemS (k' : nat) (s : tst) (w : list Z) : Prop :=
  exists j i, (k' <= j < d)%nat /\ agree w s (S j) /\ (0 < i)%nat /\ cand s j i = nth j w 0%Z.
(** still to come *)
Definition Rem (s : tst) (w : list Z) : Prop := agree w s (t_k s) \/ RemS (t_k s) s w.

Lemma s0_facts c : (s0 c = 1 \/ s0 c = -1)%Z /\ 0 <= Qcz (s0 c) * (c - Qcz (rnd c)) /\ Qcz 2 * (Qcz (s0 c) * (c - Qcz (rnd c))) <= 1.
Proof.
  destruct (Hrnd c) as [A B]. unfold s0. destruct (eleb (Qcz (rnd c)) c) eqn:H.
  - apply eleb_le in H. split; [auto|]. change (Qcz 1) with 1. split; [qclra|]. rewrite Qcmult_1_l. exact B.
  - apply eleb_gt in H. split; [auto|]. change (Qcz (-1)) with (- (1)). split; [qclra|].
    replace (Qcz 2 * (- (1) * (c - Qcz (rnd c)))) with (Qcz 2 * (Qcz (rnd c) - c)) by ring. exact A.
Qed.

Lemma cand_inj s j i i' : Inv s -> (t_k s <= j < d)%nat -> cand s j i = cand s j i' -> i = i'.
Proof.
  intros I Hj. unfold cand. destruct (Nat.ltb_spec j (t_kmax s)) as [L|L]; [|lia].
  destruct (iv_tri s I j) as [n E]; [lia|]. rewrite E. rewrite <- !ziter_plus. intros H.
  apply zz_inj in H; [lia|apply s0_facts].
Qed.

(** the squared length grows along the candidates of a level *)
Lemma cand_mono s j i : Inv s -> (t_k s <= j < d)%nat ->
  (t_center s j - Qcz (t_x s j)) * (t_center s j - Qcz (t_x s j)) <= (Qcz (cand s j i) - t_center s j) * (Qcz (cand s j i) - t_center s j).
Proof.
  intros I Hj. unfold cand. destruct (Nat.ltb_spec j (t_kmax s)) as [L|L].
  - destruct (iv_tri s I j) as [n E]; [lia|].
    assert (X : t_x s j = zx (ziter n (rnd (t_center s j), s0 (t_center s j), s0 (t_center s j)))) by (rewrite <- E; reflexivity).
    rewrite X. rewrite E. rewrite <- ziter_plus.
    destruct (s0_facts (t_center s j)) as (A & B & C).
    pose proof (zz_mono _ _ A _ B C n (i + n)%nat ltac:(lia)) as M.
    match goal with |- ?u <= _ => match type of M with ?v <= _ => replace u with v by ring end end. exact M.
  - assert (C0 : t_center s j = 0).
    { destruct (iv_cen s I j Hj) as [E _]. rewrite E. unfold cen.
      rewrite (sfrom_ext (S j) _ (fun _ => 0)).
      - unfold sfrom. rewrite qsum_0; [ring|]. intros l Hl. destruct (Nat.leb _ _); auto.
      - intros l Hl. rewrite vecx_nth by lia. rewrite (iv_zero s I) by lia. rewrite Qcz_0. ring. }
    rewrite C0.
    assert (P : (0 <= t_x s j)%Z).
    { destruct (Nat.eq_dec j (t_kmax s)) as [->|N]; [apply (iv_pos s I)|]. rewrite (iv_zero s I) by lia. lia. }
    assert (Q : 0 <= Qcz (t_x s j)) by (change 0 with (Qcz 0); apply Qcz_le; lia).
    assert (Q2 : Qcz (t_x s j) <= Qcz (t_x s j + Z.of_nat i)) by (apply Qcz_le; lia).
    revert Q Q2. generalize (Qcz (t_x s j)), (Qcz (t_x s j + Z.of_nat i)). intros a b Q Q2. clear - Q Q2. qcnra.
Qed.

(** squared length of a vector that agrees above level j *)
Lemma PL_level s j w : Inv s -> (t_k s <= j < d)%nat -> agree w s (S j) ->
  PL w j = t_dist s j + (Qcz (nth j w 0%Z) - t_center s j) * (Qcz (nth j w 0%Z) - t_center s j) * r j.
Proof.
  intros I Hj A. rewrite plen_step by lia. destruct (iv_cen s I j Hj) as [E1 E2]. rewrite E1, E2, gcoord_cen.
  rewrite (cen_ext w (vecx (t_x s)) j) by (intros l Hl; rewrite vecx_nth by lia; apply A; lia).
  rewrite (PL_ext w (vecx (t_x s)) (S j)) by (intros l Hl; rewrite vecx_nth by lia; apply A; lia). reflexivity.
Qed.

(** ** the next value *)
Lemma next_none k s : Inv s -> top_next d k s = None <-> (d <= k)%nat.
Proof.
  intros I. unfold top_next. pose proof (iv_kmax s I). destruct (Nat.ltb_spec k (t_kmax s)); [split; [discriminate|lia]|].
  destruct (Nat.leb_spec d k); split; intros; auto; try discriminate; lia.
Qed.

Lemma fset_eq {A} (f : nat -> A) i v : fset f i v i = v. Proof. unfold fset. now rewrite Nat.eqb_refl. Qed.
Lemma fset_ne {A} (f : nat -> A) i v j : j <> i -> fset f i v j = f j.
Proof. intros H. unfold fset. destruct (Nat.eqb_spec j i); [congruence|auto]. Qed.

Lemma vec_fset_cen x k v j : (k <= j)%nat -> cen (vecx (fset x k v)) j = cen (vecx x) j.
Proof. intros H. apply cen_ext. intros l Hl. rewrite !vecx_nth by lia. apply fset_ne. lia. Qed.
Lemma vec_fset_PL x k v j : (k < j)%nat -> PL (vecx (fset x k v)) j = PL (vecx x) j.
Proof. intros H. apply PL_ext. intros l Hl. rewrite !vecx_nth by lia. apply fset_ne. lia. Qed.

Lemma next_spec k s s' : Inv s -> (t_k s = k \/ S (t_k s) = k) -> top_next d k s = Some s' ->
  Inv s' /\ t_k s' = k /\ (forall w, Rem s' w <-> RemS k s w) /\ (k < d)%nat /\
  ((0 < t_x s (t_kmax s))%Z \/ (t_kmax s <= k)%nat -> (0 < t_x s' (t_kmax s'))%Z).
Proof.
  intros I Hk H. pose proof (iv_kmax s I) as KM. pose proof (iv_k s I) as KK. unfold top_next in H.
  destruct (Nat.ltb_spec k (t_kmax s)) as [L|L].
  - injection H as <-.
    assert (CN : forall j i, (k < j)%nat -> cand {| t_new := t_new s; t_k := k; t_kmax := t_kmax s;
            t_x := fset (t_x s) k (t_x s k + (- t_ddx s k - t_dx s k))%Z;
            t_dx := fset (t_dx s) k (- t_ddx s k - t_dx s k)%Z;
            t_ddx := fset (t_ddx s) k (- t_ddx s k)%Z;
            t_center := t_center s; t_dist := t_dist s |} j i = cand s j i).
    { intros j i Hj. unfold cand, tri. cbn [t_kmax t_x t_dx t_ddx]. rewrite !fset_ne by lia. reflexivity. }
    assert (TK : tri {| t_new := t_new s; t_k := k; t_kmax := t_kmax s;
            t_x := fset (t_x s) k (t_x s k + (- t_ddx s k - t_dx s k))%Z;
            t_dx := fset (t_dx s) k (- t_ddx s k - t_dx s k)%Z;
            t_ddx := fset (t_ddx s) k (- t_ddx s k)%Z;
            t_center := t_center s; t_dist := t_dist s |} k = zstep (tri s k)).
    { unfold tri. cbn [t_x t_dx t_ddx zstep]. rewrite !fset_eq. repeat match goal with |- (_, _) = (_, _) => apply f_equal2 end; lia. }
    split; [|split; [reflexivity|split; [|split; [lia|]]]].
    + constructor; cbn [t_new t_k t_kmax t_x t_center t_dist].
      * apply (iv_new s I).
      * lia.
      * lia.
      * intros j Hj. rewrite fset_ne by lia. now apply (iv_zero s I).
      * rewrite fset_ne by lia. apply (iv_pos s I).
      * intros j Hj. rewrite vec_fset_cen, vec_fset_PL by lia. apply (iv_cen s I). lia.
      * intros j Hj. destruct (iv_tri s I j) as [n E]; [lia|]. destruct (Nat.eq_dec j k) as [->|N].
        -- exists (S n). rewrite TK, E. reflexivity.
        -- exists n. rewrite <- E. unfold tri. cbn [t_x t_dx t_ddx]. rewrite !fset_ne by lia. reflexivity.
    + intros w. unfold Rem, RemS. cbn [t_k]. split.
      * intros [A|(j & i & Hj & A & Hi & C)].
        -- exists k, 1%nat. split; [lia|]. split; [|split; [lia|]].
           ++ intros l Hl. specialize (A l ltac:(lia)). cbn [t_x] in A. rewrite fset_ne in A by lia. exact A.
           ++ specialize (A k ltac:(lia)). cbn [t_x] in A. rewrite fset_eq in A. rewrite A. unfold cand.
              destruct (Nat.ltb_spec k (t_kmax s)); [|lia]. reflexivity.
        -- destruct (Nat.eq_dec j k) as [->|N].
           ++ exists k, (S i). split; [lia|]. split; [|split; [lia|]].
              ** intros l Hl. specialize (A l Hl). cbn [t_x] in A. rewrite fset_ne in A by lia. exact A.
              ** rewrite <- C. unfold cand. cbn [t_kmax]. destruct (Nat.ltb_spec k (t_kmax s)); [|lia]. rewrite TK.
                 change (zstep (tri s k)) with (ziter 1 (tri s k)). rewrite <- ziter_plus. f_equal. f_equal. lia.
           ++ exists j, i. split; [lia|]. split; [|split; [lia|]].
              ** intros l Hl. specialize (A l Hl). cbn [t_x] in A. rewrite fset_ne in A by lia. exact A.
              ** rewrite <- C. symmetry. apply CN. lia.
      * intros (j & i & Hj & A & Hi & C). destruct (Nat.eq_dec j k) as [->|N].
        -- destruct i as [|[|i]]; [lia| |].
           ++ left. intros l Hl. cbn [t_x]. destruct (Nat.eq_dec l k) as [->|N]; [|rewrite fset_ne by lia; apply A; lia].
              rewrite fset_eq, <- C. unfold cand. destruct (Nat.ltb_spec k (t_kmax s)); [|lia]. reflexivity.
           ++ right. exists k, (S i). split; [lia|]. split; [|split; [lia|]].
              ** intros l Hl. cbn [t_x]. rewrite fset_ne by lia. apply A; lia.
              ** rewrite <- C. unfold cand. cbn [t_kmax]. destruct (Nat.ltb_spec k (t_kmax s)); [|lia]. rewrite TK.
                 change (zstep (tri s k)) with (ziter 1 (tri s k)). rewrite <- ziter_plus. f_equal. f_equal. lia.
        -- right. exists j, i. split; [lia|]. split; [|split; [lia|]].
           ++ intros l Hl. cbn [t_x]. rewrite fset_ne by lia. apply A; lia.
           ++ rewrite <- C. apply CN. lia.
    + cbn [t_kmax t_x]. intros [P|P]; [|lia]. rewrite fset_ne by lia. exact P.
  - destruct (Nat.leb_spec d k) as [L'|L']; [discriminate|]. injection H as <-.
    assert (CN : forall j i, (k < j)%nat -> cand {| t_new := t_new s; t_k := k; t_kmax := k;
               t_x := fset (t_x s) k (t_x s k + 1)%Z; t_dx := t_dx s; t_ddx := t_ddx s;
               t_center := t_center s; t_dist := t_dist s |} j i = cand s j i).
    { intros j i Hj. unfold cand, tri. cbn [t_kmax t_x t_dx t_ddx]. rewrite !fset_ne by lia.
      destruct (Nat.ltb_spec j k), (Nat.ltb_spec j (t_kmax s)); try lia. }
    assert (XK : (0 <= t_x s k)%Z).
    { destruct (Nat.eq_dec k (t_kmax s)) as [->|N]; [apply (iv_pos s I)|]. rewrite (iv_zero s I) by lia. lia. }
    split; [|split; [reflexivity|split; [|split; [lia|]]]].
    + constructor; cbn [t_new t_k t_kmax t_x t_center t_dist].
      * apply (iv_new s I).
      * lia.
      * lia.
      * intros j Hj. rewrite fset_ne by lia. apply (iv_zero s I). lia.
      * rewrite fset_eq. lia.
      * intros j Hj. rewrite vec_fset_cen, vec_fset_PL by lia. apply (iv_cen s I). lia.
      * intros j Hj. lia.
    + intros w. unfold Rem, RemS. cbn [t_k]. split.
      * intros [A|(j & i & Hj & A & Hi & C)].
        -- exists k, 1%nat. split; [lia|]. split; [|split; [lia|]].
           ++ intros l Hl. specialize (A l ltac:(lia)). cbn [t_x] in A. rewrite fset_ne in A by lia. exact A.
           ++ specialize (A k ltac:(lia)). cbn [t_x] in A. rewrite fset_eq in A. rewrite A. unfold cand.
              destruct (Nat.ltb_spec k (t_kmax s)); lia.
        -- destruct (Nat.eq_dec j k) as [->|N].
           ++ exists k, (S i). split; [lia|]. split; [|split; [lia|]].
              ** intros l Hl. specialize (A l Hl). cbn [t_x] in A. rewrite fset_ne in A by lia. exact A.
              ** rewrite <- C. unfold cand. cbn [t_kmax t_x]. rewrite Nat.ltb_irrefl, fset_eq. destruct (Nat.ltb_spec k (t_kmax s)); lia.
           ++ exists j, i. split; [lia|]. split; [|split; [lia|]].
              ** intros l Hl. specialize (A l Hl). cbn [t_x] in A. rewrite fset_ne in A by lia. exact A.
              ** rewrite <- C. symmetry. apply CN. lia.
      * intros (j & i & Hj & A & Hi & C). destruct (Nat.eq_dec j k) as [->|N].
        -- destruct i as [|[|i]]; [lia| |].
           ++ left. intros l Hl. cbn [t_x]. destruct (Nat.eq_dec l k) as [->|N]; [|rewrite fset_ne by lia; apply A; lia].
              rewrite fset_eq, <- C. unfold cand. destruct (Nat.ltb_spec k (t_kmax s)); lia.
           ++ right. exists k, (S i). split; [lia|]. split; [|split; [lia|]].
              ** intros l Hl. cbn [t_x]. rewrite fset_ne by lia. apply A; lia.
              ** rewrite <- C. unfold cand. cbn [t_kmax t_x]. rewrite Nat.ltb_irrefl, fset_eq. destruct (Nat.ltb_spec k (t_kmax s)); lia.
        -- right. exists j, i. split; [lia|]. split; [|split; [lia|]].
           ++ intros l Hl. cbn [t_x]. rewrite fset_ne by lia. apply A; lia.
           ++ rewrite <- C. apply CN. lia.
    + cbn [t_kmax t_x]. intros _. rewrite fset_eq. lia.
Qed.

(** ** going down *)
Lemma down_spec s p nd : Inv s -> t_k s = S p -> nd = PL (vecx (t_x s)) (S p) ->
  let s' := top_down d mu rnd nd p s in
  Inv s' /\ t_k s' = p /\ (forall w, Rem s' w <-> Rem s w) /\ t_x s' (t_kmax s') = t_x s (t_kmax s) /\ t_kmax s' = t_kmax s.
Proof.
  intros I Hk E s'. pose proof (iv_kmax s I) as KM. pose proof (iv_k s I) as KK.
  set (c := top_center d mu (t_x s) p).
  assert (CN : forall j i, (p < j)%nat -> cand s' j i = cand s j i).
  { intros j i Hj. unfold cand, tri, s', top_down. cbn [t_kmax t_x t_dx t_ddx]. rewrite !fset_ne by lia. reflexivity. }
  assert (TP : tri s' p = (rnd c, s0 c, s0 c)).
  { unfold tri, s', top_down, s0. cbn [t_x t_dx t_ddx]. rewrite !fset_eq. fold c. destruct (eleb _ _); reflexivity. }
  split; [|split; [reflexivity|split; [|split; [|reflexivity]]]].
  - constructor.
    + apply (iv_new s I).
    + cbn. lia.
    + exact KM.
    + intros j Hj. change (t_kmax s') with (t_kmax s) in Hj. unfold s', top_down. cbn [t_x t_kmax] in *. rewrite fset_ne by lia. apply (iv_zero s I). lia.
    + unfold s', top_down. cbn [t_x t_kmax]. rewrite fset_ne by lia. apply (iv_pos s I).
    + intros j Hj. unfold s', top_down in *. cbn [t_k t_x t_center t_dist] in *. rewrite vec_fset_cen, vec_fset_PL by lia.
      destruct (Nat.eq_dec j p) as [->|N].
      * rewrite !fset_eq. split; [apply top_center_cen|exact E].
      * rewrite !fset_ne by lia. apply (iv_cen s I). lia.
    + intros j Hj. unfold s', top_down in Hj. cbn [t_k t_kmax] in Hj. destruct (Nat.eq_dec j p) as [->|N].
      * exists 0%nat. rewrite TP. unfold s', top_down. cbn [t_center]. rewrite fset_eq. reflexivity.
      * destruct (iv_tri s I j) as [n En]; [lia|]. exists n. unfold tri, s', top_down in *. cbn [t_x t_dx t_ddx t_center] in *. rewrite !fset_ne by lia. exact En.
  - intros w. unfold Rem. change (t_k s') with p. rewrite Hk.
    assert (AG : forall q, (p < q)%nat -> agree w s' q <-> agree w s q).
    { intros q Hq. unfold agree. split; intros A l Hl; specialize (A l Hl); unfold s', top_down in *; cbn [t_x] in *; rewrite fset_ne in * by lia; exact A. }
    split.
    + intros [A|(j & i & Hj & A & Hi & C)].
      * left. apply AG; [lia|]. intros l Hl. apply A. lia.
      * destruct (Nat.eq_dec j p) as [->|N].
        -- left. apply AG; auto.
        -- right. exists j, i. split; [lia|]. split; [apply AG; auto; lia|]. split; auto. rewrite <- C. symmetry. apply CN. lia.
    + intros [A|(j & i & Hj & A & Hi & C)].
      * destruct (zz_cover (rnd c) (s0 c) (proj1 (s0_facts c)) (nth p w 0%Z)) as [n Hn].
        assert (CP : cand s' p n = nth p w 0%Z).
        { unfold cand. rewrite TP. unfold s', top_down. cbn [t_kmax]. destruct (Nat.ltb_spec p (t_kmax s)); [exact Hn|lia]. }
        destruct n.
        -- left. intros l Hl. destruct (Nat.eq_dec l p) as [->|N]; [rewrite <- CP; apply cand0|]. apply (proj2 (AG (S p) ltac:(lia)) A). lia.
        -- right. exists p, (S n). split; [lia|]. split; [apply AG; auto; lia|]. split; [lia|exact CP].
      * right. exists j, i. split; [lia|]. split; [apply AG; auto; lia|]. split; auto. rewrite <- C. apply CN. lia.
  - unfold s', top_down. cbn [t_x t_kmax]. rewrite fset_ne by lia. reflexivity.
Qed.

(** ** one pass of the loop *)
(** the subtree that topenum.cpp:80-82 would store *)
Definition subof (s : tst) : list Z := map (t_x s) (seq (t_k s) (d - t_k s)).
(** newdist of topenum.cpp:55-58 *)
Definition ndist (s : tst) : Qc :=
  (t_center s (t_k s) - Qcz (t_x s (t_k s))) * (t_center s (t_k s) - Qcz (t_x s (t_k s))) * r (t_k s) + t_dist s (t_k s).
Lemma ndist_PL s : Inv s -> ndist s = PL (vecx (t_x s)) (t_k s).
Proof.
  intros I. pose proof (iv_kmax s I). pose proof (iv_k s I). rewrite (PL_level s (t_k s)); auto; [|lia|].
  - rewrite vecx_nth by lia. unfold ndist. ring.
  - intros l Hl. apply vecx_nth. lia.
Qed.
Lemma agree_RemS s w k : Inv s -> (t_k s <= k)%nat -> agree w s k -> RemS k s w -> False.
Proof.
  intros I Hk A (j & i & Hj & _ & Hi & C). rewrite A in C by lia. rewrite <- (cand0 s j) in C.
  apply cand_inj in C; auto; lia.
Qed.
(** nothing within the bound is lost when the value at level k is too far *)
Lemma up_rem s R w : Inv s -> R < ndist s -> PL w 0 <= R -> Rem s w -> RemS (S (t_k s)) s w.
Proof.
  intros I HR HW HM. pose proof (iv_kmax s I) as KM. pose proof (iv_k s I) as KK.
  assert (HR0 : forall i, (i < d)%nat -> 0 <= r i) by (intros; apply Qclt_le_weak; auto).
  assert (BAD : forall i, agree w s (S (t_k s)) -> cand s (t_k s) i = nth (t_k s) w 0%Z -> False).
  { intros i A C. pose proof (cand_mono s (t_k s) i I ltac:(lia)) as M. rewrite C in M.
    pose proof (PL_level s (t_k s) w I ltac:(lia) A) as P. pose proof (plen_anti d mu r no_target w 0 (t_k s) HR0 ltac:(lia)) as Q.
    unfold ndist in HR. pose proof (Hr (t_k s) ltac:(lia)) as RP.
    rewrite P in Q. revert HR HW Q M RP.
    generalize (t_center s (t_k s)) (Qcz (t_x s (t_k s))) (r (t_k s)) (t_dist s (t_k s)) (Qcz (nth (t_k s) w 0%Z)) (PL w 0).
    clear. intros c x rr dd z pw. generalize ((c - x) * (c - x)) ((z - c) * (z - c)). intros a b HR HW Q M RP.
    assert (a * rr <= b * rr) by qcnra. qclra. }
  destruct HM as [A|(j & i & Hj & A & Hi & C)].
  - exfalso. apply (BAD 0%nat); [intros l Hl; apply A; lia|]. rewrite cand0. symmetry. apply A. lia.
  - destruct (Nat.eq_dec j (t_k s)) as [->|N]; [exfalso; eapply BAD; eauto|].
    exists j, i. split; [lia|]. auto.
Qed.

(** index -1 is never reached: min_level >= 0 or the estimate is small there (topenum.cpp:40-43, 63-64) *)
Definition undef_free : Prop := (0 <= kmin)%Z \/ (forall b, vle b (-1)%Z = true /\ vge b (-1)%Z = false).

(** the outcomes of a pass of topenum.cpp:52-106 and what each means for the vectors still to come *)
Inductive stepped (R : Qc) (s : tst) : tstep -> Prop :=
| st_go s' : Inv s' -> (forall w, Rem s' w -> Rem s w) -> (forall w, PL w 0 <= R -> Rem s w -> Rem s' w) ->
    ((0 < t_x s (t_kmax s))%Z -> (0 < t_x s' (t_kmax s'))%Z) -> stepped R s (StGo s')
| st_out s' : Inv s' -> (forall w, Rem s' w -> Rem s w) -> (forall w, Rem s w -> agree w s (t_k s) \/ Rem s' w) ->
    (forall w, agree w s (t_k s) -> Rem s' w -> False) -> ((0 < t_x s (t_kmax s))%Z -> (0 < t_x s' (t_kmax s'))%Z) ->
    ndist s <= R ->
    stepped R s (StOut (subof s) s')
| st_end s' : t_k s' = d -> t_new s' = false -> (forall w, PL w 0 <= R -> Rem s w -> False) -> stepped R s (StEnd s').

Lemma step_spec R s : undef_free -> Inv s -> stepped R s (top_step d mu r kmin vge rnd R s).
Proof.
  intros UF I. pose proof (iv_kmax s I) as KM. pose proof (iv_k s I) as KK.
  unfold top_step. fold (ndist s). destruct (eleb (ndist s) R) eqn:HN.
  - apply eleb_le in HN.
    destruct ((kmin <? Z.of_nat (t_k s))%Z && vge (R - ndist s) (Z.of_nat (t_k s) - 1)%Z) eqn:HD.
    + destruct (t_k s) as [|p] eqn:EK.
      * exfalso. apply andb_prop in HD as [H1 H2]. apply Z.ltb_lt in H1. destruct UF as [U|U]; [lia|].
        change (Z.of_nat 0 - 1)%Z with (-1)%Z in H2. rewrite (proj2 (U (R - ndist s))) in H2. discriminate.
      * destruct (down_spec s p (ndist s) I EK) as (I' & _ & RM & XK & _).
        { rewrite ndist_PL by auto. now rewrite EK. }
        apply st_go; auto.
        -- intros w. apply RM.
        -- intros w _. apply RM.
        -- rewrite XK. auto.
    + destruct (top_next d (t_k s) s) as [s'|] eqn:E.
      * destruct (next_spec (t_k s) s s' I (or_introl eq_refl) E) as (I' & K' & RM & LD & PS).
        apply (st_out R s s'); auto.
        -- intros w H. right. now apply RM.
        -- intros w [A|H]; [left; exact A|right; now apply RM].
        -- intros w A H. apply RM in H. apply (agree_RemS s w (t_k s) I (le_n _) A H).
      * apply next_none in E; auto. lia.
  - apply eleb_gt in HN. destruct (top_next d (S (t_k s)) s) as [s'|] eqn:E.
    + destruct (next_spec (S (t_k s)) s s' I (or_intror eq_refl) E) as (I' & K' & RM & LD & PS).
      apply st_go; auto.
      * intros w H. apply RM in H as (j & i & Hj & A & Hi & C). right. exists j, i. split; [lia|]. auto.
      * intros w HW H. apply RM. eapply up_rem; eauto.
    + apply next_none in E; auto. apply st_end.
      * cbn. lia.
      * apply (iv_new s I).
      * intros w HW H. destruct (up_rem s R w I HN HW H) as (j & i & Hj & _). lia.
Qed.

(** ** a whole call and a whole sequence of calls *)
Definition ends (x t : list Z) : Prop := exists p, x = p ++ t.
Lemma ends_sub s w : Inv s -> length w = d -> (ends w (subof s) <-> agree w s (t_k s)).
Proof.
  intros I HL. pose proof (iv_kmax s I). pose proof (iv_k s I). unfold subof, agree. split.
  - intros [p E] l Hl. assert (LP : length p = t_k s).
    { apply (f_equal (@length Z)) in E. rewrite app_length, map_length, seq_length in E. lia. }
    rewrite E, app_nth2 by lia. rewrite (nth_indep _ 0%Z (t_x s 0%nat)) by (rewrite map_length, seq_length; lia).
    rewrite map_nth, seq_nth by lia. f_equal. lia.
  - intros A. exists (firstn (t_k s) w). rewrite <- (firstn_skipn (t_k s) w) at 1. f_equal.
    apply nth_ext with 0%Z (t_x s 0%nat); [rewrite skipn_length, map_length, seq_length; lia|].
    intros n Hn. rewrite skipn_length in Hn. rewrite map_nth, seq_nth by lia. rewrite <- A by lia. apply nth_skipn'.
Qed.

(** the top coordinate stays positive once it is (topenum.cpp:99-104) *)
Definition kept (s s' : tst) : Prop := (0 < t_x s (t_kmax s))%Z -> (0 < t_x s' (t_kmax s'))%Z.
(** the last non-zero coordinate of the subtree is positive *)
Definition canon (t : list Z) : Prop := tpos t = true.

Lemma subof_tpos s : Inv s -> (0 < t_x s (t_kmax s))%Z -> tpos (subof s) = true.
Proof.
  intros I P. pose proof (iv_kmax s I) as KM. pose proof (iv_k s I) as KK. unfold subof.
  replace (d - t_k s)%nat with ((t_kmax s - t_k s) + S (d - S (t_kmax s)))%nat by lia.
  rewrite seq_app, map_app. replace (t_k s + (t_kmax s - t_k s))%nat with (t_kmax s) by lia. cbn [seq map].
  assert (Z0 : allz (map (t_x s) (seq (S (t_kmax s)) (d - S (t_kmax s)))) = true).
  { apply forallb_forall. intros z Hz. apply in_map_iff in Hz as (l & <- & Hl). apply in_seq in Hl. rewrite (iv_zero s I) by lia. reflexivity. }
  rewrite tpos_skip with (k := length (map (t_x s) (seq (t_k s) (t_kmax s - t_k s)))).
  - rewrite skipn_app, skipn_all2, Nat.sub_diag by lia. cbn [app skipn tpos]. rewrite Z0. now apply Z.ltb_lt.
  - rewrite skipn_app, skipn_all2, Nat.sub_diag by lia. cbn [app skipn]. unfold allz. cbn [forallb].
    destruct (Z.eqb_spec 0 (t_x s (t_kmax s))); [lia|reflexivity].
Qed.

(** what a call does; [P]: nothing but canonical subtrees *)
Lemma loop_spec R : undef_free -> forall fuel s o s', Inv s -> top_loop d mu r kmin vge rnd R fuel s = TRet o s' ->
  match o with
  | Some sub => Inv s' /\ (forall w, Rem s' w -> Rem s w) /\
      (forall w, length w = d -> ends w sub -> Rem s w /\ (Rem s' w -> False)) /\
      (forall w, length w = d -> PL w 0 <= R -> Rem s w -> ends w sub \/ Rem s' w) /\
      ((0 < t_x s (t_kmax s))%Z -> (0 < t_x s' (t_kmax s'))%Z /\ tpos sub = true) /\
      (1 <= length sub <= d)%nat /\
      (forall w, length w = d -> ends w sub -> PL w (d - length sub) <= R)
  | None => t_k s' = d /\ t_new s' = false /\ (forall w, PL w 0 <= R -> Rem s w -> False)
  end.
Proof.
  intros UF. induction fuel; intros s o s' I H; [discriminate|]. cbn [top_loop] in H.
  pose proof (step_spec R s UF I) as S. destruct (top_step d mu r kmin vge rnd R s) as [|s1|sub s1|s1]; inversion S; subst.
  - match goal with A : Inv s1 |- _ => rename A into I1 end.
    specialize (IHfuel s1 o s' I1 H). destruct o as [sub|].
    + destruct IHfuel as (A & B & C & D & E & F & G). split; auto. split; [auto|]. split; [|split; [|split; [|split; auto]]].
      * intros w HL HE. destruct (C w HL HE). auto.
      * intros w HL HW HM. auto.
      * auto.
    + destruct IHfuel as (A & B & C). split; auto. split; auto. eauto.
  - injection H as <- <-. match goal with A : Inv s1 |- _ => rename A into I1 end.
    pose proof (iv_kmax s I) as KM. pose proof (iv_k s I) as KK.
    split; auto. split; auto. split; [|split; [|split; [|split]]].
    + intros w HL HE. apply ends_sub in HE; auto. split; [left; auto|]. intros HM. match goal with A : forall w, agree w s (t_k s) -> Rem s1 w -> False |- _ => exact (A w HE HM) end.
    + intros w HL HW HM. rewrite ends_sub by auto. auto.
    + intros P. split; auto. now apply subof_tpos.
    + unfold subof. rewrite map_length, seq_length. lia.
    + intros w HL HE. apply ends_sub in HE; auto. unfold subof. rewrite map_length, seq_length.
      replace (d - (d - t_k s))%nat with (t_k s) by lia. rewrite (PL_ext w (vecx (t_x s))); [rewrite <- ndist_PL; auto|].
      intros l Hl. rewrite vecx_nth by lia. apply HE. lia.
  - injection H as <- <-. auto.
Qed.

(** ** the first call *)
Definition fresh (s : tst) : Prop := Inv s /\ t_k s = t_kmax s /\ (forall j, t_x s j = 0%Z).

Lemma cen_zero k : cen (vecx (fun _ => 0%Z)) k = 0.
Proof.
  unfold cen. rewrite (sfrom_ext (S k) _ (fun _ => 0)).
  - unfold sfrom. rewrite qsum_0; [ring|]. intros l Hl. destruct (Nat.leb _ _); auto.
  - intros l Hl. rewrite vecx_nth by lia. rewrite Qcz_0. ring.
Qed.
Lemma PL_zero k : PL (vecx (fun _ => 0%Z)) k = 0.
Proof.
  apply qsum_0. intros i Hi. destruct (Nat.leb _ _); auto. rewrite gcoord_cen, cen_zero, vecx_nth by lia. rewrite Qcz_0. ring.
Qed.

Lemma level_le R : forall k q, top_level kmin vle R k = Some q -> (q <= k)%nat.
Proof.
  induction k; intros q H; cbn [top_level] in H; destruct (kmin <? _)%Z.
  - destruct (vle _ _); [injection H as <-; lia|discriminate].
  - injection H as <-. lia.
  - destruct (vle _ _); [injection H as <-; lia|]. apply IHk in H. lia.
  - injection H as <-. lia.
Qed.
Lemma level_some R : undef_free -> forall k, exists q, top_level kmin vle R k = Some q.
Proof.
  intros UF. induction k; cbn [top_level].
  - destruct (Z.ltb_spec kmin (Z.of_nat 0)); eauto. destruct UF as [U|U]; [cbn in *; lia|]. change (Z.of_nat 0 - 1)%Z with (-1)%Z. rewrite (proj1 (U R)). eauto.
  - destruct (Z.ltb_spec kmin (Z.of_nat (S k))); eauto. destruct (vle _ _); eauto.
Qed.
(** the level chosen is not split further, provided that the two comparisons do not both hold *)
Lemma level_stays R : forall k q, (forall m, (m < Z.of_nat k)%Z -> vle R m = true -> vge R m = false) -> top_level kmin vle R k = Some q ->
  ((kmin <? Z.of_nat q)%Z && vge R (Z.of_nat q - 1)%Z) = false.
Proof.
  induction k; intros q NT H; cbn [top_level] in H.
  - destruct (kmin <? Z.of_nat 0)%Z eqn:E.
    + destruct (vle _ _) eqn:V; [injection H as <-|discriminate]. rewrite (NT (Z.of_nat 0 - 1)%Z ltac:(lia) V). apply andb_false_r.
    + injection H as <-. rewrite E. reflexivity.
  - destruct (kmin <? Z.of_nat (S k))%Z eqn:E.
    + destruct (vle _ _) eqn:V; [injection H as <-|apply IHk; [intros m Hm; apply NT; lia|exact H]]. rewrite (NT (Z.of_nat (S k) - 1)%Z ltac:(lia) V). apply andb_false_r.
    + injection H as <-. rewrite E. reflexivity.
Qed.

Lemma init_spec R s1 : top_init d kmin vle R top_new = Some s1 ->
  fresh s1 /\ ndist s1 = 0 /\ exists e, S e = d /\ top_level kmin vle R e = Some (t_k s1).
Proof.
  unfold top_init. cbn [t_new top_new]. destruct d as [|e] eqn:ED; [discriminate|].
  destruct (top_level kmin vle R e) as [k|] eqn:E; [|discriminate]. intros H. injection H as <-.
  pose proof (level_le R e k E). split; [|split].
  - split; [|split; [reflexivity|intros j; reflexivity]]. constructor; cbn [t_new t_k t_kmax t_x t_center t_dist top_new]; auto.
    + rewrite ED. lia.
    + lia.
    + intros j Hj. rewrite cen_zero, PL_zero. auto.
    + intros j Hj. lia.
  - unfold ndist. cbn [t_k t_x t_center t_dist top_new]. rewrite Qcz_0. ring.
  - exists e. cbn [t_k]. auto.
Qed.

Lemma fresh_rem s w : fresh s -> length w = d -> allz w = true \/ tpos w = true -> Rem s w.
Proof.
  intros (I & K & X) HL HW. pose proof (iv_kmax s I) as KM. destruct HW as [Z|T].
  - left. intros l Hl. rewrite X. now apply allz_nth.
  - assert (J : exists j, (j < d)%nat /\ (0 < nth j w 0)%Z /\ forall l, (j < l)%nat -> nth l w 0%Z = 0%Z).
    { clear - T HL. rewrite <- HL. clear HL. induction w as [|a w IH]; [discriminate|]. cbn [tpos] in T. destruct (allz w) eqn:A.
      - exists 0%nat. cbn [length nth]. split; [lia|]. split; [now apply Z.ltb_lt|]. intros [|l] Hl; [lia|]. cbn [nth]. now apply allz_nth.
      - destruct (IH T) as (j & Hj & P & Q). exists (S j). cbn [length nth]. split; [lia|]. split; auto. intros [|l] Hl; [lia|]. cbn [nth]. apply Q. lia. }
    destruct J as (j & Hj & P & Q). destruct (le_lt_dec (t_kmax s) j) as [L|L].
    + right. exists j, (Z.to_nat (nth j w 0%Z)). split; [lia|]. split; [|split; [lia|]].
      * intros l Hl. rewrite X. apply Q. lia.
      * unfold cand. rewrite X. destruct (Nat.ltb_spec j (t_kmax s)); lia.
    + left. intros l Hl. rewrite X. apply Q. lia.
Qed.

(** first pass of the first call *)
Lemma first_step R s : fresh s -> ndist s = 0 -> ((kmin <? Z.of_nat (t_k s))%Z && vge R (Z.of_nat (t_k s) - 1)%Z) = false ->
  match top_step d mu r kmin vge rnd R s with
  | StGo s' => (0 < t_x s' (t_kmax s'))%Z
  | StOut sub s' => (0 < t_x s' (t_kmax s'))%Z /\ allz sub = true
  | _ => True
  end.
Proof.
  intros (I & K & X) N0 ND. unfold top_step. fold (ndist s). rewrite N0.
  replace (R - 0) with R by ring. rewrite ND. destruct (eleb 0 R).
  - destruct (top_next d (t_k s) s) as [s'|] eqn:E; auto.
    destruct (next_spec (t_k s) s s' I (or_introl eq_refl) E) as (_ & _ & _ & _ & PS). split.
    + apply PS. right. lia.
    + apply forallb_forall. intros z Hz. apply in_map_iff in Hz as (l & <- & Hl). now rewrite X.
  - destruct (top_next d (S (t_k s)) s) as [s'|] eqn:E; auto.
    destruct (next_spec (S (t_k s)) s s' I (or_intror eq_refl) E) as (_ & _ & _ & _ & PS). apply PS. right. lia.
Qed.

Lemma first_loop R fuel s o s' : undef_free -> fresh s -> ndist s = 0 ->
  ((kmin <? Z.of_nat (t_k s))%Z && vge R (Z.of_nat (t_k s) - 1)%Z) = false ->
  top_loop d mu r kmin vge rnd R fuel s = TRet o s' ->
  match o with Some sub => (0 < t_x s' (t_kmax s'))%Z /\ (tpos sub = true \/ allz sub = true) | None => True end.
Proof.
  intros UF F N0 ND H. destruct fuel as [|fuel]; [discriminate|]. cbn [top_loop] in H.
  pose proof (first_step R s F N0 ND) as FS. pose proof (step_spec R s UF (proj1 F)) as S.
  destruct (top_step d mu r kmin vge rnd R s) as [|s1|sub s1|s1]; inversion S; subst.
  - match goal with A : Inv s1 |- _ => rename A into I1 end.
    pose proof (loop_spec R UF fuel s1 o s' I1 H) as L. destruct o as [sub|]; auto. destruct L as (_ & _ & _ & _ & L & _). destruct (L FS); auto.
  - injection H as <- <-. destruct FS; auto.
  - injection H as <- <-. auto.
Qed.

(** ** the sequence of calls *)
Definition apart (l : list (list Z)) : Prop :=
  forall w i j, length w = d -> (i < length l)%nat -> (j < length l)%nat -> ends w (nth i l []) -> ends w (nth j l []) -> i = j.
(** what the subtrees handed out by the calls of topenum.cpp:33-108 satisfy *)
Record split_facts (Rs : nat -> Qc) (s : tst) (l : list (list Z)) : Prop := {
  sf_in : forall w t, length w = d -> In t l -> ends w t -> Rem s w;
  sf_cover : forall w, length w = d -> (forall i, PL w 0 <= Rs i) -> Rem s w -> exists t, In t l /\ ends w t;
  sf_apart : apart l;
  sf_len : forall t, In t l -> (1 <= length t <= d)%nat;
  sf_inside : forall t, In t l -> exists i, forall w, length w = d -> ends w t -> PL w (d - length t) <= Rs i
}.

Lemma next_old R fuel s : Inv s -> enum_next d mu r kmin vle vge rnd R fuel s = top_loop d mu r kmin vge rnd R fuel s.
Proof.
  intros I. unfold enum_next, top_init. rewrite (iv_new s I). pose proof (iv_kmax s I). pose proof (iv_k s I).
  destruct (Nat.leb_spec d (t_k s)); [lia|reflexivity].
Qed.

Lemma split_step (Rs : nat -> Qc) s sub s' l : Inv s -> Inv s' ->
  (forall w, Rem s' w -> Rem s w) ->
  (forall w, length w = d -> ends w sub -> Rem s w /\ (Rem s' w -> False)) ->
  (forall w, length w = d -> PL w 0 <= Rs 0%nat -> Rem s w -> ends w sub \/ Rem s' w) ->
  (1 <= length sub <= d)%nat -> (forall w, length w = d -> ends w sub -> PL w (d - length sub) <= Rs 0%nat) ->
  split_facts (fun i => Rs (S i)) s' l -> split_facts Rs s (sub :: l).
Proof.
  intros I I' A B C D E [F1 F2 F3 F4 F5]. constructor.
  - intros w t HL [<-|HI] HE; [now apply B|]. apply A. eapply F1; eauto.
  - intros w HL HW HM. destruct (C w HL (HW 0%nat) HM) as [H|H].
    + exists sub. split; [left|]; auto.
    + destruct (F2 w HL (fun i => HW (S i)) H) as (t & HI & HE). exists t. split; [right|]; auto.
  - intros w [|i] [|j] HL Hi Hj Ei Ej; cbn [length nth] in *; auto.
    + exfalso. apply (proj2 (B w HL Ei)). eapply F1; [exact HL| |exact Ej]. apply nth_In. lia.
    + exfalso. apply (proj2 (B w HL Ej)). eapply F1; [exact HL| |exact Ei]. apply nth_In. lia.
    + f_equal. apply (F3 w); auto; lia.
  - intros t [<-|HI]; auto.
  - intros t [<-|HI]; [exists 0%nat; exact E|]. destruct (F5 t HI) as [i Hi]. exists (S i). exact Hi.
Qed.
Lemma split_end (Rs : nat -> Qc) s : (forall w, PL w 0 <= Rs 0%nat -> Rem s w -> False) -> split_facts Rs s [].
Proof.
  intros H. constructor; try (intros; contradiction).
  - intros w HL HW HM. exfalso. exact (H w (HW 0%nat) HM).
  - intros w i j HL Hi. cbn in Hi. lia.
Qed.

Lemma split_old fuel : undef_free -> forall calls Rs s l, Inv s -> split d mu r kmin vle vge rnd fuel calls Rs s = Some l ->
  split_facts Rs s l /\ ((0 < t_x s (t_kmax s))%Z -> forall t, In t l -> tpos t = true).
Proof.
  intros UF. induction calls; intros Rs s l I H; [discriminate|]. cbn [split] in H. rewrite next_old in H by auto.
  destruct (top_loop d mu r kmin vge rnd (Rs 0%nat) fuel s) as [| |o s'] eqn:E; try discriminate.
  pose proof (loop_spec (Rs 0%nat) UF fuel s o s' I E) as L. destruct o as [sub|].
  - destruct L as (I' & A & B & C & P & D & G).
    destruct (split d mu r kmin vle vge rnd fuel calls (fun i => Rs (S i)) s') as [l'|] eqn:E'; [|discriminate]. injection H as <-.
    destruct (IHcalls _ _ _ I' E') as [F T]. split.
    + eapply split_step; eauto.
    + intros HP t [<-|HI]; [now apply P|]. apply T; auto. now apply P.
  - injection H as <-. destruct L as (_ & _ & L). split; [now apply split_end|]. intros _ t [].
Qed.

Theorem split_new fuel calls Rs l : undef_free -> split d mu r kmin vle vge rnd fuel calls Rs top_new = Some l ->
  (forall x, length x = d -> (forall i, PL x 0 <= Rs i) -> allz x = true \/ tpos x = true -> exists t, In t l /\ ends x t) /\
  apart l /\ (forall t, In t l -> (1 <= length t <= d)%nat) /\
  (forall t, In t l -> exists i, forall w, length w = d -> ends w t -> PL w (d - length t) <= Rs i) /\
  ((forall m, (m < Z.of_nat d - 1)%Z -> vle (Rs 0%nat) m = true -> vge (Rs 0%nat) m = false) -> forall t, In t l -> tpos t = true \/ allz t = true).
Proof.
  intros UF H. destruct calls as [|calls]; [discriminate|]. cbn [split] in H. unfold enum_next in H.
  destruct (top_init d kmin vle (Rs 0%nat) top_new) as [s1|] eqn:EI; [|discriminate].
  destruct (init_spec _ _ EI) as (F & N0 & e & He & HL). pose proof (proj1 F) as I. pose proof (iv_kmax s1 I). pose proof (iv_k s1 I).
  destruct (Nat.leb_spec d (t_k s1)); [lia|].
  destruct (top_loop d mu r kmin vge rnd (Rs 0%nat) fuel s1) as [| |o s'] eqn:E; try discriminate.
  pose proof (loop_spec (Rs 0%nat) UF fuel s1 o s' I E) as L.
  assert (FL : (forall m, (m < Z.of_nat d - 1)%Z -> vle (Rs 0%nat) m = true -> vge (Rs 0%nat) m = false) ->
    match o with Some sub => (0 < t_x s' (t_kmax s'))%Z /\ (tpos sub = true \/ allz sub = true) | None => True end).
  { intros NT. eapply first_loop; eauto. apply (level_stays _ e); auto. intros m Hm. apply NT. lia. }
  destruct o as [sub|].
  - destruct L as (I' & A & B & C & P & D & G).
    destruct (split d mu r kmin vle vge rnd fuel calls (fun i => Rs (S i)) s') as [l'|] eqn:E'; [|discriminate]. injection H as <-.
    destruct (split_old fuel UF _ _ _ _ I' E') as [F' T].
    assert (SF : split_facts Rs s1 (sub :: l')) by (eapply split_step; eauto).
    destruct SF as [S1 S2 S3 S4 S5]. split; [|split; [|split; [|split]]]; auto.
    + intros x Hx HW HC. apply S2; auto. apply fresh_rem; auto.
    + intros NT t [<-|HI]; [apply FL; auto|]. left. apply T; auto. now apply FL.
  - injection H as <-. destruct L as (_ & _ & L). destruct (split_end Rs s1 L) as [S1 S2 S3 S4 S5]. split; [|split; [|split; [|split]]]; auto.
    + intros x Hx HW HC. apply S2; auto. apply fresh_rem; auto.
Qed.

(** ** no subtree of full length *)
Definition low_free : Prop := (1 <= kmin)%Z \/ (forall b m, (m <= 0)%Z -> vle b m = true /\ vge b m = false).
Lemma low_undef : low_free -> undef_free.
Proof. intros [A|A]; [left; lia|right]. intros b. apply A. lia. Qed.
Lemma level_low R : low_free -> forall k q, (1 <= k)%nat -> top_level kmin vle R k = Some q -> (1 <= q)%nat.
Proof.
  intros LF. induction k; intros q Hk H; [lia|]. cbn [top_level] in H. destruct (Z.ltb_spec kmin (Z.of_nat (S k))).
  - destruct (vle R _) eqn:V; [injection H as <-; lia|]. destruct k as [|k]; [|apply (IHk q); [lia|exact H]].
    destruct LF as [A|A]; [lia|]. change (Z.of_nat 1 - 1)%Z with 0%Z in V. rewrite (proj1 (A R 0%Z ltac:(lia))) in V. discriminate.
  - injection H as <-. lia.
Qed.
Lemma step_low R s : low_free -> Inv s -> (1 <= t_k s)%nat ->
  match top_step d mu r kmin vge rnd R s with
  | StGo s' => (1 <= t_k s')%nat | StOut sub s' => (1 <= t_k s')%nat /\ (length sub < d)%nat | _ => True end.
Proof.
  intros LF I Hk. pose proof (iv_kmax s I). pose proof (iv_k s I). unfold top_step. fold (ndist s). destruct (eleb (ndist s) R).
  - destruct ((kmin <? Z.of_nat (t_k s))%Z && vge (R - ndist s) (Z.of_nat (t_k s) - 1)%Z) eqn:HD.
    + destruct (t_k s) as [|[|p]] eqn:EK; [lia| |cbn; lia].
      apply andb_prop in HD as [H1 H2]. apply Z.ltb_lt in H1. destruct LF as [A|A]; [lia|].
      change (Z.of_nat 1 - 1)%Z with 0%Z in H2. rewrite (proj2 (A (R - ndist s) 0%Z ltac:(lia))) in H2. discriminate.
    + destruct (top_next d (t_k s) s) as [s'|] eqn:E; auto.
      destruct (next_spec (t_k s) s s' I (or_introl eq_refl) E) as (_ & K' & _). rewrite map_length, seq_length. lia.
  - destruct (top_next d (S (t_k s)) s) as [s'|] eqn:E; auto.
    destruct (next_spec (S (t_k s)) s s' I (or_intror eq_refl) E) as (_ & K' & _). lia.
Qed.
Lemma loop_low R : low_free -> forall fuel s o s', Inv s -> (1 <= t_k s)%nat -> top_loop d mu r kmin vge rnd R fuel s = TRet o s' ->
  match o with Some sub => (1 <= t_k s')%nat /\ (length sub < d)%nat | None => True end.
Proof.
  intros LF. induction fuel; intros s o s' I Hk H; [discriminate|]. cbn [top_loop] in H.
  pose proof (step_low R s LF I Hk) as SL. pose proof (step_spec R s (low_undef LF) I) as S.
  destruct (top_step d mu r kmin vge rnd R s) as [|s1|sub s1|s1]; inversion S; subst.
  - eapply IHfuel; eauto.
  - injection H as <- <-. exact SL.
  - injection H as <- <-. exact Logic.I.
Qed.
Lemma split_low_old fuel : low_free -> forall calls Rs s l, Inv s -> (1 <= t_k s)%nat ->
  split d mu r kmin vle vge rnd fuel calls Rs s = Some l -> forall t, In t l -> (length t < d)%nat.
Proof.
  intros LF. induction calls; intros Rs s l I Hk H; [discriminate|]. cbn [split] in H. rewrite next_old in H by auto.
  destruct (top_loop d mu r kmin vge rnd (Rs 0%nat) fuel s) as [| |o s'] eqn:E; try discriminate.
  pose proof (loop_low (Rs 0%nat) LF fuel s o s' I Hk E) as L. pose proof (loop_spec (Rs 0%nat) (low_undef LF) fuel s o s' I E) as L2.
  destruct o as [sub|]; [|injection H as <-; intros t []].
  destruct L2 as (I' & _). destruct (split d mu r kmin vle vge rnd fuel calls (fun i => Rs (S i)) s') as [l'|] eqn:E'; [|discriminate]. injection H as <-.
  intros t [<-|HI]; [apply L|]. eapply IHcalls; eauto. apply L.
Qed.
Lemma split_low fuel calls Rs l : low_free -> (2 <= d)%nat -> split d mu r kmin vle vge rnd fuel calls Rs top_new = Some l ->
  forall t, In t l -> (length t < d)%nat.
Proof.
  intros LF Hd H. destruct calls as [|calls]; [discriminate|]. cbn [split] in H. unfold enum_next in H.
  destruct (top_init d kmin vle (Rs 0%nat) top_new) as [s1|] eqn:EI; [|discriminate].
  destruct (init_spec _ _ EI) as (F & N0 & e & He & HL). pose proof (proj1 F) as I. pose proof (iv_kmax s1 I). pose proof (iv_k s1 I).
  destruct (Nat.leb_spec d (t_k s1)); [lia|].
  assert (K1 : (1 <= t_k s1)%nat) by (apply (level_low (Rs 0%nat) LF e); auto; lia).
  destruct (top_loop d mu r kmin vge rnd (Rs 0%nat) fuel s1) as [| |o s'] eqn:E; try discriminate.
  pose proof (loop_low (Rs 0%nat) LF fuel s1 o s' I K1 E) as L. pose proof (loop_spec (Rs 0%nat) (low_undef LF) fuel s1 o s' I E) as L2.
  destruct o as [sub|]; [|injection H as <-; intros t []].
  destruct L2 as (I' & _). destruct (split d mu r kmin vle vge rnd fuel calls (fun i => Rs (S i)) s') as [l'|] eqn:E'; [|discriminate]. injection H as <-.
  intros t [<-|HI]; [apply L|]. eapply split_low_old; eauto. apply L.
Qed.

(** ** termination *)
Section Term.
Variables (M : Qc) (N : nat).
Hypothesis HN : forall j, (j < d)%nat -> Qcz 4 * M < Qcz (Z.of_nat N) * r j.

(** level j has seen n values since it was entered (topenum.cpp:91-104) *)
Definition lev (s : tst) (j n : nat) : Prop :=
  if (j <? t_kmax s)%nat then tri s j = ziter n (rnd (t_center s j), s0 (t_center s j), s0 (t_center s j))
  else t_x s j = Z.of_nat n.
(** budget of values left per level, for the termination of topenum.cpp:52 *)
Definition Meas (s : tst) (v : nat -> nat) : Prop :=
  forall j, (j < d)%nat -> ((j < t_k s)%nat -> v j = S (S N)) /\
    ((t_k s <= j)%nat -> exists n, lev s j n /\ (n + v j = S N)%nat /\ ((t_k s < j)%nat -> (1 <= v j)%nat)).
(** the budgets as one number, high levels first (topenum.cpp:52) *)
Fixpoint V (v : nat -> nat) (n : nat) : nat := match n with O => 0 | S m => v m * (N + 3) ^ m + V v m end.

Lemma V_small v n : (forall j, (j < n)%nat -> (v j <= N + 2)%nat) -> (V v n < (N + 3) ^ n)%nat.
Proof.
  induction n; intros H; cbn [V Nat.pow]; [lia|]. specialize (IHn ltac:(intros; apply H; lia)). pose proof (H n ltac:(lia)). nia.
Qed.
Lemma V_ext v v' n : (forall j, (j < n)%nat -> v j = v' j) -> V v n = V v' n.
Proof. induction n; intros H; cbn [V]; auto. rewrite IHn, H by (intros; try apply H; lia). reflexivity. Qed.
Lemma V_lt v v' k n : (k < n)%nat -> (forall j, (k < j < n)%nat -> v' j = v j) -> (v' k < v k)%nat -> (forall j, (j < k)%nat -> (v' j <= N + 2)%nat) ->
  (V v' n < V v n)%nat.
Proof.
  induction n; intros Hk Hh Hd Hl; [lia|]. cbn [V]. destruct (Nat.eq_dec k n) as [->|NE].
  - pose proof (V_small v' n Hl). nia.
  - rewrite (Hh n) by lia. specialize (IHn ltac:(lia) ltac:(intros; apply Hh; lia) Hd Hl). lia.
Qed.

Lemma lev_bound s n : Inv s -> lev s (t_k s) n -> ndist s <= M -> (n <= N)%nat.
Proof.
  intros I L HD. pose proof (iv_kmax s I) as KM. pose proof (iv_k s I) as KK.
  assert (HR0 : forall i, (i < d)%nat -> 0 <= r i) by (intros; apply Qclt_le_weak; auto).
  destruct (iv_cen s I (t_k s) ltac:(lia)) as [EC ED].
  assert (D0 : 0 <= t_dist s (t_k s)) by (rewrite ED; apply plen_nonneg; auto).
  assert (Q : Qcz (Z.of_nat n) * Qcz (Z.of_nat n) <= Qcz 4 * ((t_center s (t_k s) - Qcz (t_x s (t_k s))) * (t_center s (t_k s) - Qcz (t_x s (t_k s))))).
  { unfold lev in L. destruct (Nat.ltb_spec (t_k s) (t_kmax s)) as [LT|GE].
    - destruct (s0_facts (t_center s (t_k s))) as (A & B & C).
      pose proof (zz_far _ _ A _ B C n) as F. rewrite <- L in F. unfold tri, zx in F. cbn [fst] in F.
      match goal with |- _ <= _ * ?u => match type of F with _ <= _ * ?v => replace u with v by ring end end. exact F.
    - assert (C0 : t_center s (t_k s) = 0).
      { rewrite EC. unfold cen. rewrite (sfrom_ext (S (t_k s)) _ (fun _ => 0)).
        - unfold sfrom. rewrite qsum_0; [ring|]. intros l Hl. destruct (Nat.leb _ _); auto.
        - intros l Hl. rewrite vecx_nth by lia. rewrite (iv_zero s I) by lia. rewrite Qcz_0. ring. }
      rewrite C0, L. change (Qcz 4) with (1 + 1 + 1 + 1). generalize (Qcz (Z.of_nat n)). intros z.
      replace ((1 + 1 + 1 + 1) * ((0 - z) * (0 - z))) with (z * z + (1 + 1 + 1) * (z * z)) by ring.
      pose proof (Qcsq_nonneg z) as SQ. revert SQ. generalize (z * z). clear. intros u SQ. qclra. }
  pose proof (Hr (t_k s) ltac:(lia)) as RP. pose proof (HN (t_k s) ltac:(lia)) as HB. unfold ndist in HD.
  assert (F : Qcz (Z.of_nat n) * Qcz (Z.of_nat n) < Qcz (Z.of_nat N)).
  { revert Q RP HB HD D0. clear. generalize (t_center s (t_k s) - Qcz (t_x s (t_k s))) (r (t_k s)) (t_dist s (t_k s)) (Qcz (Z.of_nat n) * Qcz (Z.of_nat n)) (Qcz (Z.of_nat N)).
    intros y rr dd a b. generalize (y * y). change (Qcz 4) with (1 + 1 + 1 + 1). clear. intros u Q RP HB HD D0.
    assert (a * rr <= (1 + 1 + 1 + 1) * u * rr) by qcnra.
    assert (a * rr < b * rr) by qclra.
    destruct (Qclt_le_dec a b) as [G|G]; auto. exfalso. assert (b * rr <= a * rr) by qcnra. qclra. }
  rewrite <- Qcz_mul in F. clear - F. destruct (le_lt_dec n N) as [G|G]; auto. exfalso.
  assert (Qcz (Z.of_nat N) <= Qcz (Z.of_nat n * Z.of_nat n)) by (apply Qcz_le; nia). qclra.
Qed.

Lemma next_meas k s s' v : Inv s -> Meas s v -> (t_k s = k \/ S (t_k s) = k) ->
  (t_k s = k -> (1 <= v k)%nat) ->
  top_next d k s = Some s' -> exists v', Meas s' v' /\ (V v' d < V v d)%nat.
Proof.
  intros I HM Hk H1 H. destruct (next_spec k s s' I Hk H) as (I' & K' & _ & LD & _).
  pose proof (iv_kmax s I) as KM. pose proof (iv_k s I) as KK.
  assert (VK : (1 <= v k)%nat).
  { destruct Hk as [E|E]; [auto|]. destruct (HM k LD) as [_ A]. destruct (A ltac:(lia)) as (n & _ & _ & B). apply B. lia. }
  exists (fun j => if (j <? k)%nat then S (S N) else if (j =? k)%nat then (v k - 1)%nat else v j). split.
  - intros j Hj. rewrite K'. split; [intros L; destruct (Nat.ltb_spec j k); lia|]. intros L.
    destruct (Nat.ltb_spec j k); [lia|]. destruct (HM j Hj) as [_ A]. destruct (A ltac:(lia)) as (n & B & C & D).
    unfold top_next in H. destruct (Nat.eqb_spec j k) as [->|NE].
    + exists (S n). split; [|split; [lia|lia]]. unfold lev in *. destruct (Nat.ltb_spec k (t_kmax s)) as [L1|L1].
      * injection H as <-. cbn [t_kmax]. destruct (Nat.ltb_spec k (t_kmax s)); [|lia]. cbn [t_center ziter]. rewrite <- B.
        unfold tri. cbn [t_x t_dx t_ddx zstep]. rewrite !fset_eq. repeat match goal with |- (_, _) = (_, _) => apply f_equal2 end; lia.
      * destruct (Nat.leb_spec d k); [lia|]. injection H as <-. cbn [t_kmax t_x]. rewrite Nat.ltb_irrefl, fset_eq. lia.
    + exists n. split; [|split; [lia|]].
      * unfold lev in *. destruct (Nat.ltb_spec k (t_kmax s)) as [L1|L1].
        -- injection H as <-. cbn [t_kmax t_center]. unfold tri in *. cbn [t_x t_dx t_ddx]. rewrite !fset_ne by lia. exact B.
        -- destruct (Nat.leb_spec d k); [lia|]. injection H as <-. cbn [t_kmax t_x]. destruct (Nat.ltb_spec j k); [lia|].
           destruct (Nat.ltb_spec j (t_kmax s)); [lia|]. rewrite fset_ne by lia. exact B.
      * intros _. apply D. lia.
  - apply (V_lt v _ k); auto.
    + intros j Hj. destruct (Nat.ltb_spec j k), (Nat.eqb_spec j k); lia.
    + rewrite Nat.ltb_irrefl, Nat.eqb_refl. lia.
    + intros j Hj. destruct (Nat.ltb_spec j k); lia.
Qed.

Lemma down_meas s p nd v : Inv s -> Meas s v -> t_k s = S p -> (1 <= v (S p))%nat ->
  exists v', Meas (top_down d mu rnd nd p s) v' /\ (V v' d < V v d)%nat.
Proof.
  intros I HM Hk H1. pose proof (iv_kmax s I) as KM. pose proof (iv_k s I) as KK.
  exists (fun j => if (j =? p)%nat then S N else v j). split.
  - intros j Hj. change (t_k (top_down d mu rnd nd p s)) with p. destruct (HM j Hj) as [A B]. split.
    + intros L. destruct (Nat.eqb_spec j p); [lia|]. apply A. lia.
    + intros L. destruct (Nat.eqb_spec j p) as [->|NE].
      * exists 0%nat. split; [|split; lia]. unfold lev, top_down. cbn [t_kmax]. destruct (Nat.ltb_spec p (t_kmax s)); [|lia].
        unfold tri, s0. cbn [t_x t_dx t_ddx t_center ziter]. rewrite !fset_eq. destruct (eleb _ _); reflexivity.
      * destruct (B ltac:(lia)) as (n & C & D & E). exists n. split; [|split; [exact D|]].
        -- unfold lev, top_down, tri in *. cbn [t_kmax t_x t_dx t_ddx t_center]. rewrite !fset_ne by lia. exact C.
        -- intros _. destruct (Nat.eq_dec j (S p)) as [->|N2]; [exact H1|]. apply E. lia.
  - apply (V_lt v _ p); auto; [lia| | |].
    + intros j Hj. destruct (Nat.eqb_spec j p); lia.
    + rewrite Nat.eqb_refl. destruct (HM p ltac:(lia)) as [A _]. rewrite A by lia. lia.
    + intros j Hj. destruct (Nat.eqb_spec j p); [lia|]. destruct (HM j ltac:(lia)) as [A _]. rewrite A by lia. lia.
Qed.

Lemma step_meas R s v : Inv s -> Meas s v -> R <= M ->
  match top_step d mu r kmin vge rnd R s with
  | StGo s' | StOut _ s' => exists v', Meas s' v' /\ (V v' d < V v d)%nat
  | _ => True
  end.
Proof.
  intros I HM HR. pose proof (iv_kmax s I) as KM. pose proof (iv_k s I) as KK.
  unfold top_step. fold (ndist s). destruct (eleb (ndist s) R) eqn:HND.
  - apply eleb_le in HND.
    assert (VK : (1 <= v (t_k s))%nat).
    { destruct (HM (t_k s) ltac:(lia)) as [_ B]. destruct (B (le_n _)) as (n & C & D & _).
      assert (n <= N)%nat by (eapply lev_bound; eauto; eapply Qcle_trans; eauto). lia. }
    destruct ((kmin <? Z.of_nat (t_k s))%Z && vge (R - ndist s) (Z.of_nat (t_k s) - 1)%Z).
    + destruct (t_k s) as [|p] eqn:EK; auto. eapply down_meas; eauto.
    + destruct (top_next d (t_k s) s) as [s'|] eqn:E; auto. apply (next_meas (t_k s) s s' v); auto.
  - destruct (top_next d (S (t_k s)) s) as [s'|] eqn:E; auto. apply (next_meas (S (t_k s)) s s' v); auto. intros; lia.
Qed.

Lemma loop_term R : undef_free -> R <= M -> forall fuel s v, Inv s -> Meas s v -> (V v d < fuel)%nat ->
  exists o s', top_loop d mu r kmin vge rnd R fuel s = TRet o s' /\ (o <> None -> exists v', Meas s' v' /\ (V v' d < V v d)%nat).
Proof.
  intros UF HR. induction fuel; intros s v I HM HV; [lia|]. cbn [top_loop].
  pose proof (step_meas R s v I HM HR) as SM. pose proof (step_spec R s UF I) as S.
  destruct (top_step d mu r kmin vge rnd R s) as [|s1|sub s1|s1]; inversion S; subst.
  - destruct SM as (v1 & M1 & L1). match goal with A : Inv s1 |- _ => rename A into I1 end.
    destruct (IHfuel s1 v1 I1 M1 ltac:(lia)) as (o & s' & E & F). exists o, s'. split; auto. intros HO. destruct (F HO) as (v' & M' & L'). exists v'. split; auto. lia.
  - exists (Some (subof s)), s1. split; auto.
  - exists None, s1. split; auto. congruence.
Qed.

Lemma split_term_old fuel : undef_free -> forall calls (Rs : nat -> Qc) s v, (forall i, Rs i <= M) -> Inv s -> Meas s v ->
  (V v d < fuel)%nat -> (V v d < calls)%nat -> exists l, split d mu r kmin vle vge rnd fuel calls Rs s = Some l.
Proof.
  intros UF. induction calls; intros Rs s v HR I HM HF HC; [lia|]. cbn [split]. rewrite next_old by auto.
  destruct (loop_term (Rs 0%nat) UF (HR 0%nat) fuel s v I HM HF) as (o & s' & E & F). rewrite E.
  pose proof (loop_spec (Rs 0%nat) UF fuel s o s' I E) as L. destruct o as [sub|]; [|eauto].
  destruct (F ltac:(discriminate)) as (v' & M' & L'). destruct L as (I' & _).
  destruct (IHcalls (fun i => Rs (S i)) s' v' (fun i => HR (S i)) I' M' ltac:(lia) ltac:(lia)) as [l El]. rewrite El. eauto.
Qed.

Lemma split_term : undef_free -> (0 < d)%nat -> exists fuel, forall Rs : nat -> Qc, (forall i, Rs i <= M) ->
  exists l, split d mu r kmin vle vge rnd fuel fuel Rs top_new = Some l.
Proof.
  intros UF HD. exists (S ((N + 3) ^ d))%nat. intros Rs HR. cbn [split]. unfold enum_next.
  assert (EI : exists s1, top_init d kmin vle (Rs 0%nat) top_new = Some s1).
  { unfold top_init. cbn [t_new top_new]. destruct d as [|e]; [lia|]. destruct (level_some (Rs 0%nat) UF e) as [q Eq]. rewrite Eq. eauto. }
  destruct EI as [s1 EI]. rewrite EI. destruct (init_spec _ _ EI) as ((I & K & X) & _). pose proof (iv_kmax s1 I).
  destruct (Nat.leb_spec d (t_k s1)); [lia|].
  set (v := fun j => if (j <? t_k s1)%nat then S (S N) else S N).
  assert (MV : Meas s1 v).
  { intros j Hj. unfold v. split; intros L; destruct (Nat.ltb_spec j (t_k s1)); try lia. exists 0%nat. split; [|split; lia].
    unfold lev. destruct (Nat.ltb_spec j (t_kmax s1)); [lia|]. apply X. }
  assert (SV : (V v d < (N + 3) ^ d)%nat) by (apply V_small; intros j Hj; unfold v; destruct (_ <? _)%nat; lia).
  destruct (loop_term (Rs 0%nat) UF (HR 0%nat) (S ((N + 3) ^ d)) s1 v I MV ltac:(lia)) as (o & s' & E & F). rewrite E.
  pose proof (loop_spec (Rs 0%nat) UF _ s1 o s' I E) as L. destruct o as [sub|]; [|eauto].
  destruct (F ltac:(discriminate)) as (v' & M' & L'). destruct L as (I' & _).
  destruct (split_term_old (S ((N + 3) ^ d)) UF ((N + 3) ^ d) (fun i => Rs (S i)) s' v' (fun i => HR (S i)) I' M' ltac:(lia) ltac:(lia)) as [l El].
  rewrite El. eauto.
Qed.
End Term.
End TP.
