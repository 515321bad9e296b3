(** Proofs about NumVectModel. *)
From Coq Require Import List ZArith Lia Arith Bool.
From Verif Require Import Util LatticeSpec NumVectModel.
Import ListNotations.
Local Open Scope nat_scope.

(** l' is l with positions renamed: element k of l' is element p k of l. *)
Definition reidx {A} (p : nat -> nat) (l l' : list A) : Prop :=
  length l' = length l /\
  forall k, k < length l -> nth_error l' k = nth_error l (p k).

Lemma reidx_nth {A} p (l l' : list A) d k :
  reidx p l l' -> k < length l -> p k < length l -> nth k l' d = nth (p k) l d.
Proof.
  intros [HL H] Hk Hp. specialize (H k Hk).
  rewrite (nth_error_nth' l d Hp) in H.
  rewrite <- HL in Hk. rewrite (nth_error_nth' l' d Hk) in H. congruence.
Qed.

Lemma reidx_id {A} (l : list A) : reidx (fun k => k) l l.
Proof. split; auto. Qed.

Lemma reidx_comp {A} p q (l l' l'' : list A) :
  (forall k, k < length l -> q k < length l) ->
  reidx p l l' -> reidx q l' l'' -> reidx (fun k => p (q k)) l l''.
Proof.
  intros Hq [HL1 H1] [HL2 H2]. split; [congruence|].
  intros k Hk. rewrite H2 by lia. apply H1. auto.
Qed.

Lemma reidx_ext {A} p q (l l' : list A) :
  (forall k, k < length l -> p k = q k) -> reidx p l l' -> reidx q l l'.
Proof. intros H [HL H1]. split; auto. intros k Hk. rewrite <- H by auto. auto. Qed.

Lemma oswap_some {A} (l : list A) i j :
  i < length l -> j < length l -> exists l', oswap l i j = Some l' /\ reidx (tr i j) l l'.
Proof.
  intros Hi Hj. unfold oswap.
  destruct (nth_error l i) as [x|] eqn:Ei; [|apply nth_error_None in Ei; lia].
  destruct (nth_error l j) as [y|] eqn:Ej; [|apply nth_error_None in Ej; lia].
  eexists; split; [reflexivity|]. split; [now rewrite !upd_length|].
  intros k Hk. rewrite !nth_error_upd, upd_length.
  apply Nat.ltb_lt in Hi, Hj. rewrite Hi, Hj, !andb_true_r. unfold tr.
  destruct (Nat.eqb_spec k j); destruct (Nat.eqb_spec k i); subst; auto; congruence.
Qed.

Lemma oswap_inv {A} (l l' : list A) i j :
  oswap l i j = Some l' -> i < length l /\ j < length l /\ reidx (tr i j) l l'.
Proof.
  intros H. assert (Hi : i < length l /\ j < length l).
  { unfold oswap in H.
    destruct (nth_error l i) eqn:Ei; [|discriminate].
    destruct (nth_error l j) eqn:Ej; [|discriminate].
    split; apply nth_error_Some; congruence. }
  destruct Hi as [Hi Hj]. split; auto. split; auto.
  destruct (oswap_some l i j Hi Hj) as [l2 [E R]]. congruence.
Qed.

(** *** rotate_left *)
Definition rot_left_idx (first last k : nat) : nat :=
  if (first <=? k) && (k <? last) then S k else if k =? last then first else k.
Definition rot_right_idx (first last k : nat) : nat :=
  if (first <? k) && (k <=? last) then k - 1 else if k =? first then last else k.

Ltac bdestr1 a b :=
  lazymatch a with context [if _ then _ else _] => fail | _ =>
  lazymatch b with context [if _ then _ else _] => fail | _ => idtac end end.
Ltac bdestr :=
  try lia;
  repeat (match goal with
  | |- context [?a =? ?b] => bdestr1 a b; destruct (Nat.eqb_spec a b)
  | |- context [?a <? ?b] => bdestr1 a b; destruct (Nat.ltb_spec a b)
  | |- context [?a <=? ?b] => bdestr1 a b; destruct (Nat.leb_spec a b)
  end; cbn [andb orb negb]; try lia; try reflexivity).

Lemma rot_left_lt first last k n :
  first <= last < n -> k < n -> rot_left_idx first last k < n.
Proof. intros. unfold rot_left_idx. bdestr. Qed.
Lemma rot_right_lt first last k n :
  first <= last < n -> k < n -> rot_right_idx first last k < n.
Proof. intros. unfold rot_right_idx. bdestr. Qed.
Lemma rot_left_right first last k :
  first <= last -> rot_left_idx first last (rot_right_idx first last k) = k.
Proof. intros. unfold rot_left_idx, rot_right_idx. bdestr. Qed.
Lemma rot_right_left first last k :
  first <= last -> rot_right_idx first last (rot_left_idx first last k) = k.
Proof. intros. unfold rot_left_idx, rot_right_idx. bdestr. Qed.

Lemma rotate_left_loop_spec {A} n : forall (v : list A) i,
  i + n < length v ->
  exists v', rotate_left_loop n v i = Some v' /\ reidx (rot_left_idx i (i + n)) v v'.
Proof.
  induction n; intros v i H; simpl.
  - exists v. split; auto. eapply reidx_ext; [|apply reidx_id].
    intros k Hk. unfold rot_left_idx. bdestr.
  - destruct (oswap_some v i (S i)) as [v1 [E1 R1]]; try lia. rewrite E1.
    destruct (IHn v1 (S i)) as [v2 [E2 R2]]; [destruct R1; lia|].
    exists v2. split; auto. eapply reidx_ext; [|eapply reidx_comp; eauto].
    + intros k Hk. unfold rot_left_idx, tr. bdestr.
    + intros k Hk. apply rot_left_lt; lia.
Qed.

Lemma rotate_left_spec {A} (v : list A) first last :
  first <= last < length v ->
  exists v', rotate_left_by_swap v first last = Some v' /\ reidx (rot_left_idx first last) v v'.
Proof.
  intros H. unfold rotate_left_by_swap.
  destruct (rotate_left_loop_spec (last - first) v first) as [v' [E R]]; [lia|].
  exists v'. split; auto. replace (first + (last - first)) with last in R by lia. auto.
Qed.

Lemma rotate_right_loop_spec {A} n : forall (v : list A) first,
  first + n < length v ->
  exists v', rotate_right_loop n v first = Some v' /\ reidx (rot_right_idx first (first + n)) v v'.
Proof.
  induction n; intros v first H; simpl.
  - exists v. split; auto. eapply reidx_ext; [|apply reidx_id].
    intros k Hk. unfold rot_right_idx. bdestr.
  - destruct (oswap_some v (first + n) (S (first + n))) as [v1 [E1 R1]]; try lia. rewrite E1.
    destruct (IHn v1 first) as [v2 [E2 R2]]; [destruct R1; lia|].
    exists v2. split; auto. eapply reidx_ext; [|eapply reidx_comp; eauto].
    + intros k Hk. unfold rot_right_idx, tr. bdestr.
    + intros k Hk. apply rot_right_lt; lia.
Qed.

Lemma rotate_right_spec {A} (v : list A) first last :
  first <= last < length v ->
  exists v', rotate_right_by_swap v first last = Some v' /\ reidx (rot_right_idx first last) v v'.
Proof.
  intros H. unfold rotate_right_by_swap.
  destruct (rotate_right_loop_spec (last - first) v first) as [v' [E R]]; [lia|].
  exists v'. split; auto. replace (first + (last - first)) with last in R by lia. auto.
Qed.

(** *** reverse and rotate *)
Definition rev_idx (first last k : nat) : nat :=
  if (first <=? k) && (k <=? last) then first + last - k else k.

Lemma reverse_loop_spec {A} fuel : forall (v : list A) first last,
  last - first <= fuel -> (first < last -> last < length v) ->
  exists v', reverse_loop fuel v first last = Some v' /\
             reidx (if first <? last then rev_idx first last else fun k => k) v v'.
Proof.
  induction fuel; intros v first last Hf H.
  - simpl. destruct (Nat.ltb_spec first last); [lia|]. eexists; split; eauto. apply reidx_id.
  - simpl. destruct (Nat.ltb_spec first last) as [Hlt|Hge].
    + destruct (oswap_some v first last) as [v1 [E1 R1]]; try lia. rewrite E1.
      destruct (IHfuel v1 (S first) (last - 1)) as [v2 [E2 R2]]; [lia|destruct R1; lia|].
      exists v2. split; auto.
      eapply reidx_ext; [|eapply reidx_comp; [|exact R1|exact R2]].
      * intros k Hk. unfold rev_idx, tr. bdestr.
      * intros k Hk. unfold rev_idx. bdestr.
    + eexists; split; eauto. apply reidx_id.
Qed.

Lemma reverse_spec {A} (v : list A) first last :
  (first < last -> last < length v) ->
  exists v', reverse_by_swap v first last = Some v' /\
             reidx (if first <? last then rev_idx first last else fun k => k) v v'.
Proof. intros H. apply reverse_loop_spec; auto; lia. Qed.

(** effect of the swapping loop after m steps *)
Definition swaps_idx (first last m k : nat) : nat :=
  if (first <=? k) && (k <? first + m) then first + last - k
  else if (last <? k + m) && (k <=? last) then first + last - k else k.

Lemma rotate_swap_loop_spec {A} fuel : forall (v : list A) first middle last,
  last - first <= fuel -> first <= middle -> middle <= S last -> last < length v ->
  let m := Nat.min (middle - first) (S last - middle) in
  exists v', rotate_swap_loop fuel v first middle last = Some (v', first + m, last - m) /\
             reidx (swaps_idx first last m) v v'.
Proof.
  assert (G : forall fuel (v : list A) first middle last,
    first <= middle -> middle <= S last ->
    (first <? middle) && (middle <=? last) = false ->
    let m := Nat.min (middle - first) (S last - middle) in
    exists v', rotate_swap_loop fuel v first middle last = Some (v', first + m, last - m) /\
             reidx (swaps_idx first last m) v v').
  { intros fu v first middle last H1 H2 HC m. exists v.
    assert (m = 0) as ->.
    { subst m. destruct (Nat.ltb_spec first middle); destruct (Nat.leb_spec middle last);
        try discriminate HC; lia. }
    split.
    - destruct fu; cbn [rotate_swap_loop]; rewrite HC; do 3 f_equal; lia.
    - eapply reidx_ext; [|apply reidx_id]. intros. unfold swaps_idx. bdestr. }
  induction fuel; intros v first middle last Hf H1 H2 H3 m.
  - apply G; auto. bdestr.
  - destruct ((first <? middle) && (middle <=? last)) eqn:HC; [|apply G; auto].
    cbn [rotate_swap_loop]. rewrite HC.
    apply andb_true_iff in HC. destruct HC as [HC1 HC2].
    apply Nat.ltb_lt in HC1. apply Nat.leb_le in HC2.
    destruct (oswap_some v first last) as [v1 [E1 R1]]; try lia. rewrite E1.
    destruct (IHfuel v1 (S first) middle (last - 1)) as [v2 [E2 R2]]; try (destruct R1; lia).
    set (m0 := Nat.min (middle - S first) (S (last - 1) - middle)) in *.
    assert (Hm : m = S m0) by (subst m0 m; lia).
    exists v2. rewrite Hm. split.
    + rewrite E2. do 2 f_equal; [f_equal|]; lia.
    + eapply reidx_ext; [|eapply reidx_comp; [|exact R1|exact R2]].
      * intros k Hk. unfold swaps_idx, tr. bdestr.
      * intros k Hk. unfold swaps_idx. bdestr.
Qed.

Definition rot_idx (first middle last k : nat) : nat :=
  if (first <=? k) && (k <=? last) then
    if k <? first + (S last - middle) then k + (middle - first)
    else k - (S last - middle)
  else k.

Lemma rotate_spec {A} (v : list A) first middle last :
  first <= middle -> middle <= S last -> last < length v ->
  exists v', rotate_by_swap v first middle last = Some v' /\
             reidx (rot_idx first middle last) v v'.
Proof.
  intros H1 H2 H3. unfold rotate_by_swap.
  destruct (reverse_spec v first (middle - 1)) as [v1 [E1 R1]]; [lia|]. rewrite E1.
  assert (L1 : length v1 = length v) by (destruct R1; auto).
  destruct (reverse_spec v1 middle last) as [v2 [E2 R2]]; [lia|]. rewrite E2.
  assert (L2 : length v2 = length v) by (destruct R2; lia).
  destruct (rotate_swap_loop_spec (S last) v2 first middle last) as [v3 [E3 R3]]; try lia.
  rewrite E3. clear E1 E2 E3. set (m := Nat.min (middle - first) (S last - middle)) in *.
  assert (L3 : length v3 = length v) by (destruct R3; lia).
  assert (HA : exists v4, (if first + m =? middle then reverse_by_swap v3 middle (last - m)
     else reverse_by_swap v3 (first + m) (middle - 1)) = Some v4 /\
     reidx (rev_idx (first + m) (last - m)) v3 v4).
  { destruct (Nat.eqb_spec (first + m) middle).
    - destruct (reverse_spec v3 middle (last - m)) as [v4 [E4 R4]]; [lia|].
      exists v4. split; auto. eapply reidx_ext; [|exact R4].
      intros k Hk. rewrite e. destruct (Nat.ltb_spec middle (last - m)); auto.
      unfold rev_idx. bdestr.
    - assert (m = S last - middle) by (subst m; lia).
      destruct (reverse_spec v3 (first + m) (middle - 1)) as [v4 [E4 R4]]; [lia|].
      exists v4. split; auto. eapply reidx_ext; [|exact R4].
      intros k Hk. replace (last - m) with (middle - 1) by lia.
      destruct (Nat.ltb_spec (first + m) (middle - 1)); auto.
      unfold rev_idx. bdestr. }
  destruct HA as [v4 [E4 R4]]. exists v4. split; auto.
  assert (R12 : reidx (fun k => if first <=? k then if k <? middle then first + (middle - 1) - k
        else if k <=? last then middle + last - k else k else k) v v2).
  { eapply reidx_ext; [|eapply reidx_comp; [|exact R1|exact R2]].
    - intros k Hk. unfold rev_idx.
      destruct (Nat.ltb_spec first (middle - 1)); destruct (Nat.ltb_spec middle last); bdestr.
    - intros k Hk. unfold rev_idx. bdestr. }
  assert (R34 : reidx (rev_idx first last) v2 v4).
  { eapply reidx_ext; [|eapply reidx_comp; [|exact R3|exact R4]].
    - intros k Hk. unfold rev_idx, swaps_idx. bdestr.
    - intros k Hk. unfold rev_idx. bdestr. }
  eapply reidx_ext; [|eapply reidx_comp; [|exact R12|exact R34]].
  - intros k Hk. unfold rev_idx, rot_idx. bdestr.
  - intros k Hk. unfold rev_idx. bdestr.
Qed.

(** *** is_zero, size_nz, addmul, dot_product *)
Lemma nth_skipn_add {A} c : forall (v : list A) n d, nth n (skipn c v) d = nth (c + n) v d.
Proof.
  induction c; intros v n d; simpl; auto. destruct v; simpl; auto. destruct n; auto.
Qed.

Lemma nv_is_zero_spec v c :
  nv_is_zero v c = true <-> forall k, c <= k -> nth k v 0%Z = 0%Z.
Proof.
  unfold nv_is_zero. rewrite forallb_forall. split.
  - intros H k Hk. destruct (Nat.lt_ge_cases k (length v)) as [Hl|Hl].
    + apply Z.eqb_eq. apply H. replace k with (c + (k - c)) by lia.
      rewrite <- nth_skipn_add. apply nth_In. rewrite skipn_length. lia.
    + apply nth_overflow. lia.
  - intros H x Hx. apply Z.eqb_eq. apply (In_nth _ _ 0%Z) in Hx. destruct Hx as [n [Hn <-]].
    rewrite nth_skipn_add. apply H. lia.
Qed.

Lemma size_nz_loop_spec v i :
  size_nz_loop v i <= i /\
  (forall k, size_nz_loop v i <= k < i -> nth k v 0%Z = 0%Z) /\
  (0 < size_nz_loop v i -> nth (size_nz_loop v i - 1) v 0%Z <> 0%Z).
Proof.
  induction i; simpl.
  - repeat split; intros; lia.
  - destruct (Z.eqb_spec (nth i v 0%Z) 0%Z) as [E|E].
    + destruct IHi as [H1 [H2 H3]]. repeat split; auto.
      intros k Hk. destruct (Nat.eq_dec k i); subst; auto. apply H2; lia.
    + repeat split; auto; try lia. intros _. simpl. rewrite Nat.sub_0_r. auto.
Qed.

Lemma size_nz_spec v :
  size_nz v <= length v /\
  (forall k, size_nz v <= k -> nth k v 0%Z = 0%Z) /\
  (0 < size_nz v -> nth (size_nz v - 1) v 0%Z <> 0%Z).
Proof.
  unfold size_nz. destruct (size_nz_loop_spec v (length v)) as [H1 [H2 H3]].
  repeat split; auto. intros k Hk. destruct (Nat.lt_ge_cases k (length v)).
  - apply H2; lia.
  - apply nth_overflow; lia.
Qed.

Lemma nv_addmul_spec n : forall a v x,
  n <= length a -> n <= length v ->
  exists a', nv_addmul n a v x = Some a' /\ length a' = length a /\
    forall k, nth k a' 0%Z = (nth k a 0 + if (k <? n)%nat then x * nth k v 0 else 0)%Z.
Proof.
  induction n; intros a v x Ha Hv; cbn [nv_addmul].
  - exists a. repeat split; auto. intros. destruct (Nat.ltb_spec k 0); lia.
  - rewrite (nth_error_nth' a 0%Z) by lia. rewrite (nth_error_nth' v 0%Z) by lia.
    set (a1 := upd _ _ _).
    destruct (IHn a1 v x) as [a' [E [L H]]]; [subst a1; rewrite upd_length; lia|lia|].
    exists a'. repeat split; auto.
    + rewrite L. subst a1. apply upd_length.
    + intros k. rewrite H. subst a1.
      destruct (Nat.eq_dec k n) as [->|Hne].
      * rewrite nth_upd_eq by lia. destruct (Nat.ltb_spec n n); [lia|].
        destruct (Nat.ltb_spec n (S n)); [|lia]. lia.
      * rewrite nth_upd_neq by lia.
        destruct (Nat.ltb_spec k n); destruct (Nat.ltb_spec k (S n)); try lia.
Qed.

Lemma nv_addmul_inv n a v x a' :
  nv_addmul n a v x = Some a' -> n <= length a /\ n <= length v.
Proof.
  revert a; induction n; intros a; cbn [nv_addmul]; [lia|].
  destruct (nth_error a n) eqn:E1; [|discriminate].
  destruct (nth_error v n) eqn:E2; [|discriminate].
  intros _. split.
  - assert (n < length a) by (apply nth_error_Some; congruence). lia.
  - assert (n < length v) by (apply nth_error_Some; congruence). lia.
Qed.

Lemma dot_loop_spec k : forall i acc v1 v2,
  i + k <= length v1 -> i + k <= length v2 ->
  dot_loop k i acc v1 v2 =
  Some (acc + zsum k (fun t => nth (i + t) v1 0 * nth (i + t) v2 0))%Z.
Proof.
  induction k; intros i acc v1 v2 H1 H2; simpl dot_loop.
  - simpl. f_equal. lia.
  - rewrite (nth_error_nth' v1 0%Z) by lia. rewrite (nth_error_nth' v2 0%Z) by lia.
    rewrite IHk by lia. f_equal.
    change (S k) with (1 + k). rewrite zsum_split. cbn [zsum].
    rewrite Nat.add_0_r.
    rewrite (zsum_ext k (fun t => nth (S i + t) v1 0 * nth (S i + t) v2 0)%Z
                        (fun t => nth (i + (1 + t)) v1 0 * nth (i + (1 + t)) v2 0)%Z); [lia|].
    intros t _. rewrite <- !plus_n_Sm. replace (i + (1 + t)) with (S i + t) by lia. reflexivity.
Qed.

Lemma nv_dot_product_spec v1 v2 n :
  1 <= n -> n <= length v1 -> n <= length v2 ->
  nv_dot_product v1 v2 0 n = Some (inner n v1 v2).
Proof.
  intros Hn H1 H2. unfold nv_dot_product.
  rewrite (nth_error_nth' v1 0%Z) by lia. rewrite (nth_error_nth' v2 0%Z) by lia.
  rewrite dot_loop_spec by lia. f_equal. unfold inner.
  replace n with (1 + (n - 1)) at 2 by lia. rewrite zsum_split. cbn [zsum]. lia.
Qed.
