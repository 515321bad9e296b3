(** Invariants of the GSO state machine. *)
From Coq Require Import List ZArith Lia Arith Bool.
From Verif Require Import Util LatticeSpec NumVectModel NumVectProofs MatrixModel MatrixProofs GsoModel.
Import ListNotations.
Local Open Scope nat_scope.

Ltac gs := bdestr; subst; auto; try (f_equal; lia); try lia.
Notation sg := (sgent 0%Z).

(** gent at 0 is ent *)
Lemma gent_ent M i j : gent 0%Z M i j = ent M i j.
Proof. reflexivity. Qed.

Record Inv (z : gz) : Prop := {
  I_b : dims (gd z) (gc z) (gb z);
  I_c : 1 <= gc z;
  I_known : nsr z <= nkr z /\ nkr z <= gd z /\ nkc z <= gc z;
  I_unl : locked z = false -> nsr z = nkr z;
  I_irs : length (irs z) = gd z /\ forall i, i < gd z -> 1 <= nth i (irs z) 0 <= gc z;
  I_src : forall i k, i < nsr z -> nkc z <= k -> ent (gb z) i k = 0%Z;
  I_tail : forall i k, i < gd z -> Nat.max (nkc z) (nth i (irs z) 0) <= k -> ent (gb z) i k = 0%Z;
  I_kc : 0 < nsr z -> 1 <= nkc z;
  I_g : en_g z = true -> locked z = false /\ dims (gd z) (gd z) (gg z) /\
        forall i j, i < nkr z -> j < nkr z ->
          sg (gg z) i j = inner (gc z) (nth i (gb z) []) (nth j (gb z) []);
  I_u : en_t z = true -> exists cu, dims (gd z) cu (gu z);
  I_ui : en_t z = true -> en_i z = true -> exists cu, dims (gd z) cu (gui z)
}.

(** ** Effects of operations on a matrix *)
Inductive effect := EAdd (i j : nat) (x : Z) | EPerm (p q : nat -> nat) | ENeg (i : nat) | ENone.

Definition perm_ok (n : nat) (p q : nat -> nat) : Prop :=
  (forall k, k < n -> p k < n /\ q (p k) = k) /\ (forall k, k < n -> q k < n /\ p (q k) = k).

Definition eff_ok (n : nat) (e : effect) : Prop :=
  match e with
  | EAdd i j _ => i < n /\ j < n /\ i <> j
  | EPerm p q => perm_ok n p q
  | ENeg i => i < n
  | ENone => True
  end.

(** same row operation as on b *)
Definition eff_mat (e : effect) (M M' : list (list Z)) : Prop :=
  length M' = length M /\
  match e with
  | EAdd i j x => forall a k, ent M' a k = (ent M a k + if (a =? i)%nat then x * ent M j k else 0)%Z
  | EPerm p _ => forall a k, a < length M -> ent M' a k = ent M (p a) k
  | ENeg i => forall a k, ent M' a k = (if (a =? i)%nat then - ent M a k else ent M a k)%Z
  | ENone => M' = M
  end.

(** the dual row operation (on the transposed inverse) *)
Definition eff_dual (e : effect) (M M' : list (list Z)) : Prop :=
  length M' = length M /\
  match e with
  | EAdd i j x => forall a k, ent M' a k = (ent M a k + if (a =? j)%nat then - x * ent M i k else 0)%Z
  | EPerm p _ => forall a k, a < length M -> ent M' a k = ent M (p a) k
  | ENeg i => forall a k, ent M' a k = (if (a =? i)%nat then - ent M a k else ent M a k)%Z
  | ENone => M' = M
  end.

(** flags and transforms unchanged/updated consistently *)
Definition flags_eq (z z' : gz) : Prop :=
  gc z' = gc z /\ en_g z' = en_g z /\ en_t z' = en_t z /\ en_i z' = en_i z /\ force_long z' = force_long z.

Lemma dims_again R C C' (M M' : list (list Z)) : dims R C M -> dims R C M' -> dims R C' M -> dims R C' M'.
Proof. intros [_ A] [L B] [_ C0]. split; auto. intros i Hi. rewrite B, <- (A i), C0 by auto. auto. Qed.

(** transform matrices keep their dimensions; disabled ones are not touched *)
Definition shape (z z' : gz) : Prop :=
  (en_t z = true -> forall cu, dims (gd z) cu (gu z) -> dims (gd z) cu (gu z')) /\
  (en_t z = true -> en_i z = true -> forall cu, dims (gd z) cu (gui z) -> dims (gd z) cu (gui z')) /\
  (en_t z = false -> gu z' = gu z) /\ (en_t z && en_i z = false -> gui z' = gui z).

Lemma shape_eq z z' : gu z' = gu z -> gui z' = gui z -> shape z z'.
Proof. intros E1 E2. unfold shape. rewrite E1, E2. auto. Qed.

Definition step_ok (z : gz) (z' : gz) (e : effect) : Prop :=
  Inv z' /\ flags_eq z z' /\ eff_ok (gd z) e /\ eff_mat e (gb z) (gb z') /\
  (forall i, e <> ENeg i) /\
  (en_t z = true -> eff_mat e (gu z) (gu z')) /\
  (en_t z = true -> en_i z = true -> eff_dual e (gui z) (gui z')) /\ shape z z'.

Lemma mul_2si_eq x e : mul_2si x e = (x * 2 ^ Z.of_nat e)%Z.
Proof. unfold mul_2si. apply Z.shiftl_mul_pow2. lia. Qed.

Lemma inner_nth n v w : inner n v w = zsum n (fun k => nth k v 0 * nth k w 0)%Z.
Proof. reflexivity. Qed.

Lemma inner_comm n v w : inner n v w = inner n w v.
Proof. unfold inner. apply zsum_ext. intros. lia. Qed.

(** Gram entry of rows i,j of B *)
Definition G (c : nat) (B : list (list Z)) (i j : nat) : Z :=
  inner c (nth i B []) (nth j B []).

Lemma G_comm c B i j : G c B i j = G c B j i.
Proof. apply inner_comm. Qed.

Lemma G_ent c B i j : G c B i j = zsum c (fun k => ent B i k * ent B j k)%Z.
Proof. reflexivity. Qed.

Lemma G_add c B B' i j x a b :
  (forall a k, ent B' a k = (ent B a k + if (a =? i)%nat then x * ent B j k else 0)%Z) ->
  G c B' a b = (G c B a b + (if (a =? i)%nat then x * G c B j b else 0)
      + (if (b =? i)%nat then x * G c B a j else 0)
      + (if ((a =? i)%nat) && ((b =? i)%nat) then x * x * G c B j j else 0))%Z.
Proof.
  intros H. rewrite !G_ent.
  rewrite zsum_ext with (g := fun k =>
    ((ent B a k * ent B b k) + (if (a =? i)%nat then x else 0) * (ent B j k * ent B b k)
     + (if (b =? i)%nat then x else 0) * (ent B a k * ent B j k)
     + (if ((a =? i)%nat)%nat && ((b =? i)%nat)%nat then x * x else 0) * (ent B j k * ent B j k))%Z).
  - rewrite !zsum_plus, !zsum_scal.
    destruct ((a =? i)%nat); destruct ((b =? i)%nat); cbn [andb]; ring.
  - intros k _. rewrite !H. destruct ((a =? i)%nat); destruct ((b =? i)%nat); cbn [andb]; ring.
Qed.

(** ** The Gram row loop *)
Lemma gram_row_loop_spec R C kr i j h g :
  dims R C g -> kr <= R -> kr <= C -> i < kr -> j < kr -> i <> j ->
  exists g', gram_row_loop kr i j h g = Some g' /\ dims R C g' /\
    forall a b, a < kr -> b < kr -> sg g' a b =
      (if ((a =? i)%nat) && negb ((b =? i)%nat) then sg g i b + h (sg g j b)
       else if ((b =? i)%nat) && negb ((a =? i)%nat) then sg g a i + h (sg g a j)
       else sg g a b)%Z.
Proof.
  intros HD HR HC Hi Hj Hij. unfold gram_row_loop.
  destruct (ofor_inv (fun k gk => dims R C gk /\
     forall a b, sg gk a b =
      (if ((a =? i)%nat) && negb ((b =? i)%nat) && ((b <? k)%nat) then sg g i b + h (sg g j b)
       else if ((b =? i)%nat) && negb ((a =? i)%nat) && ((a <? k)%nat) then sg g a i + h (sg g a j)
       else sg g a b)%Z)
    (fun k g => if (k =? i)%nat then Some g
      else gjk <- sym_get g j k;; gik <- sym_get g i k;; sym_set g i k (gik + h gjk)%Z) kr 0 g)
    as [g' [E [D H]]].
  - split; auto. intros a b. destruct (Nat.ltb_spec b 0); [lia|]. destruct (Nat.ltb_spec a 0); [lia|].
    now rewrite !andb_false_r.
  - intros k s Hk [Ds Hs]. destruct (Nat.eqb_spec k i) as [->|Hki].
    + exists s. split; auto. split; auto. intros a b. rewrite Hs.
      destruct (Nat.eqb_spec a i); destruct (Nat.eqb_spec b i); subst; cbn [andb negb]; auto.
      * destruct (Nat.ltb_spec b i); destruct (Nat.ltb_spec b (S i)); auto; lia.
      * destruct (Nat.ltb_spec a i); destruct (Nat.ltb_spec a (S i)); auto; lia.
    + rewrite (sym_get_some 0%Z R C) by (auto; lia). simpl.
      rewrite (sym_get_some 0%Z R C) by (auto; lia). simpl.
      destruct (sym_set_some 0%Z R C s i k (sg s i k + h (sg s j k))%Z) as [s' [Es [Ds' Hs']]]; auto; try lia.
      exists s'. split; auto. split; auto. intros a b. rewrite Hs'.
      assert (Q1 : sg s i k = sg g i k).
      { rewrite Hs. rewrite Nat.eqb_refl. destruct (Nat.eqb_spec k i); [lia|].
        destruct (Nat.ltb_spec k k); [lia|]. reflexivity. }
      assert (Q2 : sg s j k = sg g j k).
      { rewrite Hs. destruct (Nat.eqb_spec j i); [lia|]. destruct (Nat.eqb_spec k i); [lia|]. reflexivity. }
      rewrite Q1, Q2, Hs.
      destruct (Nat.eqb_spec a i); destruct (Nat.eqb_spec b k); destruct (Nat.eqb_spec a k);
        destruct (Nat.eqb_spec b i); subst; cbn [andb orb negb]; try lia; auto.
      * destruct (Nat.ltb_spec k (S k)); [auto|lia].
      * destruct (Nat.ltb_spec b k); destruct (Nat.ltb_spec b (S k)); auto; lia.
      * destruct (Nat.ltb_spec k (S k)); [|lia].
        rewrite (sgent_sym 0%Z g i k), (sgent_sym 0%Z g j k). auto.
      * destruct (Nat.ltb_spec a k); destruct (Nat.ltb_spec a (S k)); auto; lia.
  - exists g'. split; auto. split; auto. intros a b Ha Hb. rewrite H.
    destruct (Nat.ltb_spec a (0 + kr)); [|lia]. destruct (Nat.ltb_spec b (0 + kr)); [|lia].
    now rewrite !andb_true_r.
Qed.

(** conclusion for the Gram matrix: diag update followed by the loop gives the
    Gram matrix of the new basis. *)
Lemma gram_addmul_correct d c B B' g g1 kr i j y h :
  dims d d g -> dims d d g1 -> kr <= d -> i < kr -> j < kr -> i <> j ->
  (forall a b, a < kr -> b < kr -> sg g a b = G c B a b) ->
  (forall a b, sg g1 a b = if ((a =? i)%nat) && ((b =? i)%nat) then (G c B i i + 2 * y * G c B i j + y * y * G c B j j)%Z else sg g a b) ->
  (forall v, h v = (y * v)%Z) ->
  (forall a k, ent B' a k = (ent B a k + if (a =? i)%nat then y * ent B j k else 0)%Z) ->
  exists g', gram_row_loop kr i j h g1 = Some g' /\ dims d d g' /\
    forall a b, a < kr -> b < kr -> sg g' a b = G c B' a b.
Proof.
  intros HD HD1 HR Hi Hj Hij HG HG1 Hh HB.
  destruct (gram_row_loop_spec d d kr i j h g1) as [g' [E [D H]]]; auto.
  exists g'. split; auto. split; auto. intros a b Ha Hb. rewrite H by auto.
  rewrite (G_add c B B' i j y a b HB). rewrite !Hh, !HG1.
  destruct (Nat.eqb_spec a i); destruct (Nat.eqb_spec b i); destruct (Nat.eqb_spec j i);
    subst; cbn [andb negb]; try lia.
  - rewrite (G_comm c B j i). ring.
  - rewrite Nat.eqb_refl; cbn [andb]. rewrite !HG by lia. ring.
  - rewrite !HG by lia. ring.
  - rewrite !HG by lia. ring.
Qed.

Lemma sg_mset d g i x g' :
  dims d d g -> i < d -> mset g i i x = Some g' ->
  dims d d g' /\ forall a b, sg g' a b = if ((a =? i)%nat) && ((b =? i)%nat) then x else sg g a b.
Proof.
  intros HD Hi E. destruct (mset_some 0%Z d d g i i x) as [g2 [E2 [D2 H2]]]; auto.
  assert (g2 = g') by congruence. subst g2. split; auto.
  intros a b. unfold sgent. rewrite !H2. bdestr; subst; try lia.
Qed.

(** ** Updating b and the transforms *)
Lemma dims_ent_out R C M a k : dims R C M -> C <= k -> ent M a k = 0%Z.
Proof.
  intros [HR HC] Hk. unfold ent. destruct (Nat.lt_ge_cases a R).
  - apply nth_overflow. rewrite HC; auto.
  - rewrite (nth_overflow M) by lia. destruct k; auto.
Qed.

Lemma b_addmul z i j y :
  Inv z -> i < nkr z -> j < nsr z ->
  exists b', mrow_addmul (gb z) i j y (nkc z) = Some b' /\ dims (gd z) (gc z) b' /\
    forall a k, ent b' a k = (ent (gb z) a k + if (a =? i)%nat then y * ent (gb z) j k else 0)%Z.
Proof.
  intros HI Hi Hj. destruct HI.
  destruct (mrow_addmul_some (gd z) (gc z) (gb z) i j y (nkc z)) as [b' [E [D H]]]; auto; try lia.
  exists b'. split; auto. split; auto. intros a k. rewrite H.
  destruct (Nat.eqb_spec a i); cbn [andb]; auto.
  destruct (Nat.ltb_spec k (nkc z)); auto. rewrite (I_src0 j k); try lia.
Qed.

Lemma b_addmul_full z i j y :
  Inv z -> i < nkr z -> j < nsr z ->
  exists b', mrow_addmul_full (gb z) i j y = Some b' /\ dims (gd z) (gc z) b' /\
    forall a k, ent b' a k = (ent (gb z) a k + if (a =? i)%nat then y * ent (gb z) j k else 0)%Z.
Proof.
  intros HI Hi Hj. destruct HI.
  destruct (mrow_addmul_full_some (gd z) (gc z) (gb z) i j y) as [b' [E [D H]]]; auto; try lia.
  exists b'. auto.
Qed.

Definition same_known (z z' : gz) : Prop :=
  nkr z' = nkr z /\ nsr z' = nsr z /\ nkc z' = nkc z /\ locked z' = locked z /\ irs z' = irs z.

Lemma transform_addmul_spec z0 z i j y ny :
  Inv z0 -> gu z = gu z0 -> gui z = gui z0 -> en_t z = en_t z0 -> en_i z = en_i z0 ->
  i < gd z0 -> j < gd z0 -> ny = (- y)%Z ->
  exists z', transform_addmul z i j y ny = Some z' /\
    gb z' = gb z /\ gg z' = gg z /\ flags_eq z z' /\ same_known z z' /\
    (en_t z0 = true -> eff_mat (EAdd i j y) (gu z0) (gu z') /\ exists cu, dims (gd z0) cu (gu z')) /\
    (en_t z0 = true -> en_i z0 = true -> eff_dual (EAdd i j y) (gui z0) (gui z') /\ exists cu, dims (gd z0) cu (gui z')) /\
    shape z0 z'.
Proof.
  intros HI Eu Eui Et Ei Hi Hj ->. unfold transform_addmul. rewrite Eu, Eui, Et, Ei.
  destruct (en_t z0) eqn:ET.
  - destruct (I_u _ HI ET) as [cu Du].
    destruct (mrow_addmul_full_some (gd z0) cu (gu z0) i j y) as [u' [E [D H]]]; auto.
    rewrite E. simpl. destruct (en_i z0) eqn:EI.
    + destruct (I_ui _ HI ET EI) as [cui Dui].
      destruct (mrow_addmul_full_some (gd z0) cui (gui z0) j i (- y)%Z) as [ui' [E' [D' H']]]; auto.
      rewrite E'. simpl. eexists; split; [reflexivity|]. simpl.
      assert (S0 : shape z0 (set_ui (set_u z u') ui')).
      { split; [|split; [|split]]; simpl; try congruence; [intros _ c Dc|intros _ _ c Dc|].
        - exact (dims_again _ _ _ _ _ Du D Dc).
        - exact (dims_again _ _ _ _ _ Dui D' Dc).
        - rewrite ET, EI. discriminate. }
      do 2 (split; [auto|]). do 2 (split; [repeat split; auto|]). split; [|split; [|exact S0]].
      * intros _. split; [|eauto]. split; auto. destruct D, Du; simpl; congruence.
      * intros _ _. split; [|eauto]. split; auto. destruct D', Dui; simpl; congruence.
    + eexists; split; [reflexivity|]. simpl.
      assert (S0 : shape z0 (set_u z u')).
      { split; [|split; [|split]]; simpl; try congruence. intros _ c Dc. exact (dims_again _ _ _ _ _ Du D Dc). }
      do 2 (split; [auto|]). do 2 (split; [repeat split; auto|]). split; [|split; [discriminate|exact S0]].
      intros _. split; [|eauto]. split; auto. destruct D, Du; simpl; congruence.
  - eexists; split; [reflexivity|]. do 2 (split; [auto|]). do 2 (split; [repeat split; auto|]). split; [discriminate|split; [discriminate|]].
    unfold shape. rewrite ET. split; [discriminate|]. split; [discriminate|]. auto.
Qed.

(** assembling: new state z' has new b', the transform effect and a Gram matrix *)
Lemma step_ok_add z z' i j y :
  Inv z -> i < nkr z -> j < nsr z -> i <> j ->
  dims (gd z) (gc z) (gb z') ->
  (forall a k, ent (gb z') a k = (ent (gb z) a k + if (a =? i)%nat then y * ent (gb z) j k else 0)%Z) ->
  flags_eq z z' -> same_known z z' ->
  (en_t z = true -> eff_mat (EAdd i j y) (gu z) (gu z') /\ exists cu, dims (gd z) cu (gu z')) ->
  (en_t z = true -> en_i z = true -> eff_dual (EAdd i j y) (gui z) (gui z') /\ exists cu, dims (gd z) cu (gui z')) ->
  shape z z' ->
  (en_g z = true -> dims (gd z) (gd z) (gg z') /\
     forall a b, a < nkr z -> b < nkr z -> sg (gg z') a b = G (gc z) (gb z') a b) ->
  step_ok z z' (EAdd i j y).
Proof.
  intros HI Hi Hj Hij HD HB HF HK HU HUI HSH HG.
  assert (Hd : gd z' = gd z) by (unfold gd; destruct HD; auto).
  pose proof HF as [Fc [Fg [Ft [Fi Ffl]]]]. pose proof HK as [K1 [K2 [K3 [K4 K5]]]].
  pose proof HI as [].
  split; [|split; [|split; [|split; [|split; [|split; [|split]]]]]]; auto.
  - constructor; rewrite ?Hd, ?Fc, ?K1, ?K2, ?K3, ?K4, ?K5; auto.
    + intros a k Ha Hk. rewrite HB. rewrite I_src0 by auto. rewrite (I_src0 j k) by auto.
      destruct ((a =? i)%nat); lia.
    + intros a k Ha Hk. rewrite HB. rewrite I_tail0 by auto. rewrite (I_src0 j k) by lia.
      destruct ((a =? i)%nat); lia.
    + intros Eg. rewrite Fg in Eg. destruct (HG Eg) as [D1 H1]. destruct (I_g0 Eg) as [L _].
      split; auto; split; auto; intros a b Ha Hb; apply (H1 a b Ha Hb).
    + intros Et. rewrite Ft in Et. apply HU; auto.
    + intros Et Ei. rewrite Ft in Et. rewrite Fi in Ei. apply HUI; auto.
  - simpl. lia.
  - split; [destruct HD; auto|]. exact HB.
  - intros; discriminate.
  - intros Et. apply HU; auto.
  - intros Et Ei. apply HUI; auto.
Qed.

Ltac tr_spec z0 z y ny Z' :=
  destruct (transform_addmul_spec z0 z _ _ y ny) as [Z' [?E [?Eb [?Eg [?F [?K [?HU [?HUI ?SH]]]]]]]].

Lemma en_g_facts z : Inv z -> en_g z = true ->
  dims (gd z) (gd z) (gg z) /\
  (forall a b, a < nkr z -> b < nkr z -> sg (gg z) a b = G (gc z) (gb z) a b) /\ nsr z = nkr z.
Proof.
  intros HI Eg. destruct (I_g _ HI Eg) as [L [D H]]. split; auto. split; auto. apply (I_unl _ HI L).
Qed.

Lemma mget_sg d g i : dims d d g -> i < d -> mget g i i = Some (sg g i i).
Proof.
  intros. rewrite (mget_some 0%Z d d) by auto. unfold sgent. now rewrite Nat.leb_refl.
Qed.

(** Proof script shared by the five row additions; the differing parts are
    the b update lemma and the Gram diagonal update. *)
Lemma row_add_ok z i j : Inv z -> legal_rowop z i j ->
  exists z', row_add z i j = Some z' /\ step_ok z z' (EAdd i j 1).
Proof.
  intros HI [Hi [Hj Hij]]. unfold row_add.
  assert (Hd : i < gd z /\ j < gd z) by (destruct HI; lia).
  destruct (b_addmul z i j 1 HI Hi Hj) as [b' [E1 [D1 H1]]]. rewrite E1. simpl.
  destruct (transform_addmul_spec z (set_b z b') i j 1 (-1)%Z) as [z1 [E2 [Eb [Eg [F [K [HU [HUI SH]]]]]]]]; auto; try tauto.
  rewrite E2. simpl. simpl in Eb, Eg.
  destruct (en_g z) eqn:EG.
  - destruct (en_g_facts z HI EG) as [Dg [HG Hs]].
    rewrite (sym_get_some 0%Z (gd z) (gd z)) by (auto; lia). simpl.
    rewrite (mget_sg (gd z)) by (auto; lia). simpl. rewrite (mget_sg (gd z)) by (auto; lia). simpl.
    destruct (mset_some 0%Z (gd z) (gd z) (gg z) i i (sg (gg z) i i + (mul_2si (sg (gg z) i j) 1 + sg (gg z) j j))%Z)
      as [g1 [E3 _]]; auto; try lia. rewrite E3. simpl.
    destruct (sg_mset _ _ _ _ _ Dg (proj1 Hd) E3) as [Dg1 Hg1].
    destruct (gram_addmul_correct (gd z) (gc z) (gb z) b' (gg z) g1 (nkr z) i j 1 (fun x => x)) as [g2 [E4 [D4 H4]]]; auto; try lia.
    { destruct HI; lia. }
    { intros a b. rewrite Hg1. rewrite !HG by lia. destruct (((a =? i)%nat) && ((b =? i)%nat)); auto.
      rewrite mul_2si_eq. change (Z.of_nat 1) with 1%Z. ring. }
    rewrite E4. simpl. eexists; split; [reflexivity|].
    apply step_ok_add; simpl; try rewrite Eb; auto.
  - eexists; split; [reflexivity|]. apply step_ok_add; auto; try rewrite Eb; auto; try congruence.
Qed.

Lemma row_sub_ok z i j : Inv z -> legal_rowop z i j ->
  exists z', row_sub z i j = Some z' /\ step_ok z z' (EAdd i j (-1)).
Proof.
  intros HI [Hi [Hj Hij]]. unfold row_sub.
  assert (Hd : i < gd z /\ j < gd z) by (destruct HI; lia).
  destruct (b_addmul z i j (-1)%Z HI Hi Hj) as [b' [E1 [D1 H1]]]. rewrite E1. simpl.
  destruct (transform_addmul_spec z (set_b z b') i j (-1)%Z 1) as [z1 [E2 [Eb [Eg [F [K [HU [HUI SH]]]]]]]]; auto; try tauto.
  rewrite E2. simpl. simpl in Eb, Eg.
  destruct (en_g z) eqn:EG.
  - destruct (en_g_facts z HI EG) as [Dg [HG Hs]].
    rewrite (sym_get_some 0%Z (gd z) (gd z)) by (auto; lia). simpl.
    rewrite (mget_sg (gd z)) by (auto; lia). simpl. rewrite (mget_sg (gd z)) by (auto; lia). simpl.
    destruct (mset_some 0%Z (gd z) (gd z) (gg z) i i (sg (gg z) i i + (sg (gg z) j j - mul_2si (sg (gg z) i j) 1))%Z)
      as [g1 [E3 _]]; auto; try lia. rewrite E3. simpl.
    destruct (sg_mset _ _ _ _ _ Dg (proj1 Hd) E3) as [Dg1 Hg1].
    destruct (gram_addmul_correct (gd z) (gc z) (gb z) b' (gg z) g1 (nkr z) i j (-1)%Z Z.opp) as [g2 [E4 [D4 H4]]]; auto; try lia.
    { destruct HI; lia. }
    { intros a b. rewrite Hg1. rewrite !HG by lia. destruct (((a =? i)%nat) && ((b =? i)%nat)); auto.
      rewrite mul_2si_eq. change (Z.of_nat 1) with 1%Z. ring. }
    rewrite E4. simpl. eexists; split; [reflexivity|].
    apply step_ok_add; simpl; try rewrite Eb; auto.
  - eexists; split; [reflexivity|]. apply step_ok_add; auto; try rewrite Eb; auto; try congruence.
Qed.

(** Gram part of row_addmul_si / _si_2exp / _2exp *)
Lemma gram_two_step z b' i j y v1 v2 h :
  Inv z -> en_g z = true -> legal_rowop z i j ->
  (forall a k, ent b' a k = (ent (gb z) a k + if (a =? i)%nat then y * ent (gb z) j k else 0)%Z) ->
  (v1 + v2 (G (gc z) (gb z) j j) = 2 * y * G (gc z) (gb z) i j + y * y * G (gc z) (gb z) j j)%Z ->
  (forall v, h v = (y * v)%Z) ->
  exists g1 g2 g3, mset (gg z) i i (sg (gg z) i i + v1)%Z = Some g1 /\
    mget g1 j j = Some (sg (gg z) j j) /\ mget g1 i i = Some (sg (gg z) i i + v1)%Z /\
    mset g1 i i (sg (gg z) i i + v1 + v2 (sg (gg z) j j))%Z = Some g2 /\
    gram_row_loop (nkr z) i j h g2 = Some g3 /\ dims (gd z) (gd z) g3 /\
    forall a b, a < nkr z -> b < nkr z -> sg g3 a b = G (gc z) b' a b.
Proof.
  intros HI EG [Hi [Hj Hij]] HB Hv Hh.
  assert (Hd : i < gd z /\ j < gd z) by (destruct HI; lia).
  destruct (en_g_facts z HI EG) as [Dg [HG Hs]].
  destruct (mset_some 0%Z (gd z) (gd z) (gg z) i i (sg (gg z) i i + v1)%Z) as [g1 [E1 _]]; auto; try lia.
  destruct (sg_mset _ _ _ _ _ Dg (proj1 Hd) E1) as [Dg1 Hg1].
  destruct (mset_some 0%Z (gd z) (gd z) g1 i i (sg (gg z) i i + v1 + v2 (sg (gg z) j j))%Z) as [g2 [E2 _]]; auto; try lia.
  destruct (sg_mset _ _ _ _ _ Dg1 (proj1 Hd) E2) as [Dg2 Hg2].
  destruct (gram_addmul_correct (gd z) (gc z) (gb z) b' (gg z) g2 (nkr z) i j y h) as [g3 [E3 [D3 H3]]]; auto; try lia.
  { destruct HI; lia. }
  { intros a b. rewrite Hg2, Hg1. destruct (((a =? i)%nat) && ((b =? i)%nat)); auto. rewrite !HG by lia. lia. }
  exists g1, g2, g3. repeat split; auto; try (destruct D3; auto).
  - rewrite (mget_sg (gd z)) by (auto; lia). f_equal. rewrite Hg1.
    destruct (Nat.eqb_spec j i); cbn [andb]; auto; lia.
  - rewrite (mget_sg (gd z)) by (auto; lia). f_equal. rewrite Hg1. now rewrite !Nat.eqb_refl.
Qed.

Lemma row_addmul_si_ok z i j x : Inv z -> legal_rowop z i j ->
  exists z', row_addmul_si z i j x = Some z' /\ step_ok z z' (EAdd i j x).
Proof.
  intros HI HL. pose proof HL as [Hi [Hj Hij]]. unfold row_addmul_si.
  assert (Hd : i < gd z /\ j < gd z) by (destruct HI; lia).
  destruct (b_addmul z i j x HI Hi Hj) as [b' [E1 [D1 H1]]]. rewrite E1. simpl.
  destruct (transform_addmul_spec z (set_b z b') i j x (-x)%Z) as [z1 [E2 [Eb [Eg [F [K [HU [HUI SH]]]]]]]]; auto; try tauto.
  rewrite E2. simpl. simpl in Eb, Eg.
  destruct (en_g z) eqn:EG.
  - destruct (en_g_facts z HI EG) as [Dg [HG Hs]].
    rewrite (sym_get_some 0%Z (gd z) (gd z)) by (auto; lia). simpl.
    rewrite (mget_sg (gd z)) by (auto; lia). simpl.
    destruct (gram_two_step z b' i j x (mul_2si (sg (gg z) i j * x) 1) (fun v => v * x * x)%Z (fun y => y * x)%Z)
      as [g1 [g2 [g3 [A1 [A2 [A3 [A4 [A5 [A6 A7]]]]]]]]]; auto.
    { rewrite mul_2si_eq, HG by lia. simpl Z.of_nat. ring. }
    { intros; ring. }
    rewrite A1; simpl. rewrite A2; simpl. rewrite A3; simpl. rewrite A4; simpl. rewrite A5; simpl.
    eexists; split; [reflexivity|].
    apply step_ok_add; simpl; try rewrite Eb; auto.
  - eexists; split; [reflexivity|]. apply step_ok_add; auto; try rewrite Eb; auto; try congruence.
Qed.

Lemma pow2_add a b : (2 ^ Z.of_nat (a + b) = 2 ^ Z.of_nat a * 2 ^ Z.of_nat b)%Z.
Proof. rewrite Nat2Z.inj_add. apply Z.pow_add_r; lia. Qed.

Lemma row_addmul_si_2exp_ok z i j x e : Inv z -> legal_rowop z i j ->
  exists z', row_addmul_si_2exp z i j x e = Some z' /\ step_ok z z' (EAdd i j (x * 2 ^ Z.of_nat e)).
Proof.
  intros HI HL. pose proof HL as [Hi [Hj Hij]]. unfold row_addmul_si_2exp.
  assert (Hd : i < gd z /\ j < gd z) by (destruct HI; lia).
  rewrite <- (mul_2si_eq x e).
  destruct (b_addmul z i j (mul_2si x e) HI Hi Hj) as [b' [E1 [D1 H1]]]. rewrite E1. simpl.
  destruct (transform_addmul_spec z (set_b z b') i j (mul_2si x e) (mul_2si (-x) e)) as [z1 [E2 [Eb [Eg [F [K [HU [HUI SH]]]]]]]]; auto; try tauto.
  { rewrite !mul_2si_eq. ring. }
  rewrite E2. simpl. simpl in Eb, Eg.
  destruct (en_g z) eqn:EG.
  - destruct (en_g_facts z HI EG) as [Dg [HG Hs]].
    rewrite (sym_get_some 0%Z (gd z) (gd z)) by (auto; lia). simpl.
    rewrite (mget_sg (gd z)) by (auto; lia). simpl.
    destruct (gram_two_step z b' i j (mul_2si x e) (mul_2si (sg (gg z) i j * x) (e + 1)) (fun v => mul_2si (v * x * x) (e + (e + 0))) (fun y => mul_2si (y * x) e))
      as [g1 [g2 [g3 [A1 [A2 [A3 [A4 [A5 [A6 A7]]]]]]]]]; auto.
    { rewrite !mul_2si_eq, HG by lia. rewrite Nat.add_0_r. rewrite !pow2_add. simpl Z.of_nat. ring. }
    { intros; rewrite !mul_2si_eq; ring. }
    rewrite A1; simpl. rewrite A2; simpl. rewrite A3; simpl. rewrite A4; simpl. rewrite A5; simpl.
    eexists; split; [reflexivity|].
    apply step_ok_add; simpl; try rewrite Eb; auto.
  - eexists; split; [reflexivity|]. apply step_ok_add; auto; try rewrite Eb; auto; try congruence.
Qed.

Lemma row_addmul_2exp_ok z i j x e : Inv z -> legal_rowop z i j ->
  exists z', row_addmul_2exp z i j x e = Some z' /\ step_ok z z' (EAdd i j (x * 2 ^ Z.of_nat e)).
Proof.
  intros HI HL. pose proof HL as [Hi [Hj Hij]]. unfold row_addmul_2exp.
  assert (Hd : i < gd z /\ j < gd z) by (destruct HI; lia).
  rewrite <- (mul_2si_eq x e).
  destruct (b_addmul_full z i j (mul_2si x e) HI Hi Hj) as [b' [E1 [D1 H1]]]. rewrite E1. simpl.
  destruct (transform_addmul_spec z (set_b z b') i j (mul_2si x e) (mul_2si (-x) e)) as [z1 [E2 [Eb [Eg [F [K [HU [HUI SH]]]]]]]]; auto; try tauto.
  { rewrite !mul_2si_eq. ring. }
  rewrite E2. simpl. simpl in Eb, Eg.
  destruct (en_g z) eqn:EG.
  - destruct (en_g_facts z HI EG) as [Dg [HG Hs]].
    rewrite (sym_get_some 0%Z (gd z) (gd z)) by (auto; lia). simpl.
    rewrite (mget_sg (gd z)) by (auto; lia). simpl.
    destruct (gram_two_step z b' i j (mul_2si x e) (mul_2si (sg (gg z) i j * x) (e + 1)) (fun v => mul_2si (v * x * x) (e + (e + 0))) (fun y => mul_2si (y * x) e))
      as [g1 [g2 [g3 [A1 [A2 [A3 [A4 [A5 [A6 A7]]]]]]]]]; auto.
    { rewrite !mul_2si_eq, HG by lia. rewrite Nat.add_0_r. rewrite !pow2_add. simpl Z.of_nat. ring. }
    { intros; rewrite !mul_2si_eq; ring. }
    rewrite A1; simpl. rewrite A2; simpl. rewrite A3; simpl. rewrite A4; simpl. rewrite A5; simpl.
    eexists; split; [reflexivity|].
    apply step_ok_add; simpl; try rewrite Eb; auto.
  - eexists; split; [reflexivity|]. apply step_ok_add; auto; try rewrite Eb; auto; try congruence.
Qed.

Lemma step_ok_refl z : Inv z -> step_ok z z ENone.
Proof.
  intros HI. split; auto. split; [repeat split|]. split; [exact I|]. split; [split; auto|].
  split; [intros; discriminate|]. split; [intros; split; auto|]. split; [intros; split; auto|]. apply shape_eq; auto.
Qed.

Lemma row_addmul_we_ok z i j lx e zx e2 : Inv z -> legal_rowop z i j ->
  exists z' ef, row_addmul_we z i j lx e zx e2 = Some z' /\ step_ok z z' ef.
Proof.
  intros HI HL. unfold row_addmul_we. destruct (e =? 0).
  - destruct (lx =? 1)%Z. { destruct (row_add_ok z i j HI HL) as [z' [E S]]. eauto. }
    destruct (lx =? -1)%Z. { destruct (row_sub_ok z i j HI HL) as [z' [E S]]. eauto. }
    destruct (lx =? 0)%Z; simpl.
    + exists z, ENone. split; auto. apply step_ok_refl; auto.
    + destruct (row_addmul_si_ok z i j lx HI HL) as [z' [E S]]. eauto.
  - destruct (force_long z).
    + destruct (row_addmul_si_2exp_ok z i j lx e HI HL) as [z' [E S]]. eauto.
    + destruct (row_addmul_2exp_ok z i j zx e2 HI HL) as [z' [E S]]. eauto.
Qed.

(** ** Permutations *)
Lemma step_ok_perm z z' p q :
  Inv z -> perm_ok (gd z) p q ->
  dims (gd z) (gc z) (gb z') ->
  (forall a k, a < gd z -> ent (gb z') a k = ent (gb z) (p a) k) ->
  flags_eq z z' ->
  nsr z' <= nkr z' /\ nkr z' <= gd z /\ nkc z' = nkc z ->
  nkr z' <= nkr z ->
  locked z' = locked z -> nsr z' = nkr z' ->
  length (irs z') = gd z -> (forall i, i < gd z -> 1 <= nth i (irs z') 0 <= gc z) ->
  (forall i, i < nkr z' -> p i < nkr z) ->
  nsr z = nkr z ->
  (forall i k, i < gd z -> Nat.max (nkc z) (nth i (irs z') 0) <= k -> ent (gb z') i k = 0%Z) ->
  (en_t z = true -> eff_mat (EPerm p q) (gu z) (gu z') /\ exists cu, dims (gd z) cu (gu z')) ->
  (en_t z = true -> en_i z = true -> eff_dual (EPerm p q) (gui z) (gui z') /\ exists cu, dims (gd z) cu (gui z')) ->
  shape z z' ->
  (en_g z = true -> dims (gd z) (gd z) (gg z') /\
     forall a b, a < nkr z' -> b < nkr z' -> sg (gg z') a b = sg (gg z) (p a) (p b)) ->
  step_ok z z' (EPerm p q).
Proof.
  intros HI HP HD HB HF HK1 HK1' HK2 HK3 HI1 HI2 HKp Hsk HT HU HUI HSH HG.
  assert (Hd : gd z' = gd z) by (unfold gd; destruct HD; auto).
  pose proof HF as [Fc [Fg [Ft [Fi Ffl]]]]. pose proof HI as [].
  split; [|split; [|split; [|split; [|split; [|split; [|split]]]]]]; auto.
  - constructor; rewrite ?Hd, ?Fc; auto; try lia.
    + intros a k Ha Hk. rewrite HB by lia. apply I_src0; [|lia].
      rewrite Hsk. apply HKp. lia.
    + intros a k Ha Hk. apply HT; auto. lia.
    + intros Eg. rewrite Fg in Eg. destruct (HG Eg) as [D1 H1].
      destruct (I_g0 Eg) as [L [_ HGz]]. split; [congruence|]. split; auto.
      intros a b Ha Hb. rewrite H1 by auto.
      assert (Pa : p a < nkr z) by (apply HKp; auto).
      assert (Pb : p b < nkr z) by (apply HKp; auto).
      rewrite HGz by auto. apply zsum_ext. intros k Hk.
      change (ent (gb z) (p a) k * ent (gb z) (p b) k = ent (gb z') a k * ent (gb z') b k)%Z.
      rewrite !HB by lia. auto.
    + intros Et. rewrite Ft in Et. apply HU; auto.
    + intros Et Ei. rewrite Ft in Et. rewrite Fi in Ei. apply HUI; auto.
  - split; [destruct HD; auto|]. intros a k Ha. apply HB; auto.
  - intros; discriminate.
  - intros Et. apply HU; auto.
  - intros Et Ei. apply HUI; auto.
Qed.

Lemma perm_ok_tr n i j : i < n -> j < n -> perm_ok n (tr i j) (tr i j).
Proof. intros Hi Hj. split; intros k Hk; split; try apply tr_lt; auto; apply tr_invol. Qed.

Lemma perm_ok_rot n f l : f <= l < n -> perm_ok n (rot_left_idx f l) (rot_right_idx f l).
Proof.
  intros H. split; intros k Hk; split; try (apply rot_left_lt; lia); try (apply rot_right_lt; lia).
  apply rot_right_left; lia. apply rot_left_right; lia.
Qed.
Lemma perm_ok_sym n p q : perm_ok n p q -> perm_ok n q p.
Proof. intros [H1 H2]; split; auto. Qed.

Lemma oswap_dims R C (M : list (list Z)) i j :
  dims R C M -> i < R -> j < R ->
  exists M', oswap M i j = Some M' /\ dims R C M' /\
    forall a k, a < R -> ent M' a k = ent M (tr i j a) k.
Proof.
  intros [HR HC] Hi Hj. destruct (oswap_some M i j) as [M' [E R1]]; try lia.
  exists M'. split; auto.
  assert (HN : forall a, a < R -> nth a M' [] = nth (tr i j a) M []).
  { intros a Ha. apply reidx_nth; auto; try lia. rewrite HR. apply tr_lt; lia. }
  split.
  - split; [destruct R1; lia|]. intros a Ha. rewrite HN by auto. apply HC. apply tr_lt; auto.
  - intros a k Ha. unfold ent. now rewrite HN.
Qed.

Lemma row_swap_gram d g i j kr :
  dims d d g -> i < j -> j < kr -> kr <= d ->
  exists g1 g2 g3 g4,
    ofor (seq 0 i) (fun k g => mswap g i k j k) g = Some g1 /\
    ofor (seq (i + 1) (j - (i + 1))) (fun k g => mswap g k i j k) g1 = Some g2 /\
    ofor (seq (j + 1) (kr - (j + 1))) (fun k g => mswap g k i k j) g2 = Some g3 /\
    mswap g3 i i j j = Some g4 /\ dims d d g4 /\
    forall a b, a < kr -> b < kr -> sg g4 a b = sg g (tr i j a) (tr i j b).
Proof.
  intros HD Hij Hj Hkr.
  destruct (ofor_inv (fun k gk => dims d d gk /\ forall a b, gent 0%Z gk a b =
     if ((b <? k)%nat) && ((a =? i)%nat) then gent 0%Z g j b else if ((b <? k)%nat) && ((a =? j)%nat) then gent 0%Z g i b
     else gent 0%Z g a b) (fun k g => mswap g i k j k) i 0 g) as [g1 [E1 [D1 H1]]].
  { split; auto. }
  { intros k s Hk [Ds Hs]. destruct (mswap_some 0%Z d d s i k j k) as [s' [Es [Ds' Hs']]]; auto; try lia.
    exists s'. split; auto. split; auto. intros a b. rewrite Hs', !Hs. gs. }
  destruct (ofor_inv (fun k gk => dims d d gk /\ forall a b, gent 0%Z gk a b =
     if ((i <? a)%nat) && ((a <? k)%nat) && ((b =? i)%nat) then gent 0%Z g1 j a
     else if ((i <? b)%nat) && ((b <? k)%nat) && ((a =? j)%nat) then gent 0%Z g1 b i
     else gent 0%Z g1 a b) (fun k g => mswap g k i j k) (j - (i + 1)) (i + 1) g1) as [g2 [E2 [D2 H2]]].
  { split; auto. intros a b. gs. }
  { intros k s Hk [Ds Hs]. destruct (mswap_some 0%Z d d s k i j k) as [s' [Es [Ds' Hs']]]; auto; try lia.
    exists s'. split; auto. split; auto. intros a b. rewrite Hs', !Hs. gs. }
  destruct (ofor_inv (fun k gk => dims d d gk /\ forall a b, gent 0%Z gk a b =
     if ((j <? a)%nat) && ((a <? k)%nat) && ((b =? i)%nat) then gent 0%Z g2 a j
     else if ((j <? a)%nat) && ((a <? k)%nat) && ((b =? j)%nat) then gent 0%Z g2 a i
     else gent 0%Z g2 a b) (fun k g => mswap g k i k j) (kr - (j + 1)) (j + 1) g2) as [g3 [E3 [D3 H3]]].
  { split; auto. intros a b. gs. }
  { intros k s Hk [Ds Hs]. destruct (mswap_some 0%Z d d s k i k j) as [s' [Es [Ds' Hs']]]; auto; try lia.
    exists s'. split; auto. split; auto. intros a b. rewrite Hs', !Hs. gs. }
  destruct (mswap_some 0%Z d d g3 i i j j) as [g4 [E4 [D4 H4]]]; auto; try lia.
  exists g1, g2, g3, g4. repeat split; auto; try apply D4.
  replace (0 + i) with i in * by lia. replace (i + 1 + (j - (i + 1))) with j in * by lia.
  replace (j + 1 + (kr - (j + 1))) with kr in * by lia.
  assert (L : forall a b, a < kr -> b <= a -> gent 0%Z g4 a b = sg g (tr i j a) (tr i j b)).
  { intros a b Ha Hb. rewrite H4, !H3, !H2, !H1. unfold sgent, tr.
    bdestr; subst; auto; try lia. }
  intros a b Ha Hb. unfold sgent at 1. destruct (Nat.leb_spec b a).
  - apply L; auto.
  - rewrite L by lia. apply sgent_sym.
Qed.

Lemma row_swap_ok z i j : Inv z -> legal z (OSwap i j) ->
  exists z', row_swap z i j = Some z' /\ step_ok z z' (EPerm (tr i j) (tr i j)).
Proof.
  intros HI [Hij [Hi Hl]]. unfold row_swap. pose proof HI as [].
  pose proof (I_unl0 Hl) as Hs.
  destruct (oswap_dims (gd z) (gc z) (gb z) i j) as [b' [E1 [D1 H1]]]; auto; try lia.
  rewrite E1. simpl.
  assert (exists z2, (if en_t z then u' <- oswap (gu z) i j;; Some (set_u (set_b z b') u') else Some (set_b z b')) = Some z2
     /\ gb z2 = b' /\ gg z2 = gg z /\ flags_eq z z2 /\ same_known z z2 /\
     (en_t z = true -> eff_mat (EPerm (tr i j) (tr i j)) (gu z) (gu z2) /\ exists cu, dims (gd z) cu (gu z2)) /\ shape z z2) as [z2 [E2 [Eb [Eg [F [K [HU SH]]]]]]].
  { destruct (en_t z) eqn:ET.
    - destruct (I_u0 eq_refl) as [cu Du].
      destruct (oswap_dims (gd z) cu (gu z) i j) as [u' [E [D H]]]; auto; try lia.
      rewrite E. simpl. eexists; split; [reflexivity|].
      do 2 (split; [auto|]). do 2 (split; [repeat split; auto|]). split; [intros _; split; [split; simpl|]|].
      + destruct D, Du; congruence.
      + intros a k Ha. apply H. destruct Du; lia.
      + simpl. eauto.
      + split; [|split; [|split]]; simpl; try congruence. intros _ c Dc. exact (dims_again _ _ _ _ _ Du D Dc).
    - eexists; split; [reflexivity|]. do 2 (split; [auto|]). do 2 (split; [repeat split; auto|]). split; [discriminate|].
      apply shape_eq; auto. }
  rewrite E2. simpl.
  destruct K as [K1 [K2 [K3 [K4 K5]]]].
  assert (Htail : forall a k, a < gd z -> Nat.max (nkc z) (nth a (irs z) 0) <= k -> ent b' a k = 0%Z).
  { intros a k Ha Hk. rewrite H1 by auto. unfold tr.
    destruct (Nat.eqb_spec a i); [apply I_src0; lia|].
    destruct (Nat.eqb_spec a j); [apply I_src0; lia|]. apply I_tail0; auto. }
  assert (Hp : forall a, a < nkr z -> tr i j a < nkr z) by (intros; apply tr_lt; lia).
  destruct (en_g z) eqn:EG.
  - destruct (Nat.ltb_spec j i); [lia|].
    destruct (en_g_facts z HI EG) as [Dg [HG _]].
    destruct (row_swap_gram (gd z) (gg z) i j (nkr z)) as [g1 [g2 [g3 [g4 [A1 [A2 [A3 [A4 [A5 A6]]]]]]]]]; auto; try lia.
    rewrite A1; simpl. rewrite A2; simpl. rewrite A3; simpl. rewrite A4; simpl.
    eexists; split; [reflexivity|].
    apply step_ok_perm; simpl; rewrite ?Eb, ?K1, ?K2, ?K3, ?K4, ?K5; auto; try lia.
    all: try (apply perm_ok_tr; lia); try apply I_irs0; congruence.
  - eexists; split; [reflexivity|].
    apply step_ok_perm; simpl; rewrite ?Eb, ?K1, ?K2, ?K3, ?K4, ?K5; auto; try lia; try congruence.
    all: try (apply perm_ok_tr; lia); try apply I_irs0; congruence.
Qed.

Lemma rot_dims_l R C (M : list (list Z)) f l : dims R C M -> f <= l < R ->
  exists M', rotate_left_by_swap M f l = Some M' /\ dims R C M' /\
    forall a k, a < R -> ent M' a k = ent M (rot_left_idx f l a) k.
Proof. intros. destruct (rotate_left_dims 0%Z R C M f l) as [M' [E [D H1]]]; auto. exists M'; auto. Qed.
Lemma rot_dims_r R C (M : list (list Z)) f l : dims R C M -> f <= l < R ->
  exists M', rotate_right_by_swap M f l = Some M' /\ dims R C M' /\
    forall a k, a < R -> ent M' a k = ent M (rot_right_idx f l a) k.
Proof. intros. destruct (rotate_right_dims 0%Z R C M f l) as [M' [E [D H1]]]; auto. exists M'; auto. Qed.

(** transform part of move_row *)
Lemma move_transform z b' f l (rot : list (list Z) -> nat -> nat -> option (list (list Z))) p q :
  Inv z -> f <= l < gd z ->
  (forall R C M, dims R C M -> f <= l < R -> exists M', rot M f l = Some M' /\ dims R C M' /\
     forall a k, a < R -> ent M' a k = ent M (p a) k) ->
  exists z2, (if en_t z then
             u' <- rot (gu z) f l;;
             let z2 := set_u (set_b z b') u' in
             if en_i z then ui' <- rot (gui z) f l;; Some (set_ui z2 ui')
             else Some z2
           else Some (set_b z b')) = Some z2 /\
     gb z2 = b' /\ gg z2 = gg z /\ flags_eq z z2 /\ same_known z z2 /\
     (en_t z = true -> eff_mat (EPerm p q) (gu z) (gu z2) /\ exists cu, dims (gd z) cu (gu z2)) /\
     (en_t z = true -> en_i z = true -> eff_dual (EPerm p q) (gui z) (gui z2) /\ exists cu, dims (gd z) cu (gui z2)) /\ shape z z2.
Proof.
  intros HI Hfl Hrot. destruct (en_t z) eqn:ET.
  - destruct (I_u _ HI ET) as [cu Du].
    destruct (Hrot (gd z) cu (gu z) Du Hfl) as [u' [E [D H]]]. rewrite E. simpl.
    destruct (en_i z) eqn:EI.
    + destruct (I_ui _ HI ET EI) as [cui Dui].
      destruct (Hrot (gd z) cui (gui z) Dui Hfl) as [ui' [E' [D' H']]]. rewrite E'. simpl.
      eexists; split; [reflexivity|]. do 2 (split; [auto|]). do 2 (split; [repeat split; auto|]). split; [|split].
      * intros _. split; [|simpl; eauto]. split; simpl; [destruct D, Du; congruence|].
        intros a k Ha. apply H. destruct Du; lia.
      * intros _ _. split; [|simpl; eauto]. split; simpl; [destruct D', Dui; congruence|].
        intros a k Ha. apply H'. destruct Dui; lia.
      * split; [|split; [|split]]; simpl; try congruence; [intros _ c Dc|intros _ _ c Dc|].
        -- exact (dims_again _ _ _ _ _ Du D Dc).
        -- exact (dims_again _ _ _ _ _ Dui D' Dc).
        -- rewrite ET, EI. discriminate.
    + eexists; split; [reflexivity|]. do 2 (split; [auto|]). do 2 (split; [repeat split; auto|]). split; [|split; [discriminate|]].
      * intros _. split; [|simpl; eauto]. split; simpl; [destruct D, Du; congruence|].
        intros a k Ha. apply H. destruct Du; lia.
      * split; [|split; [|split]]; simpl; try congruence. intros _ c Dc. exact (dims_again _ _ _ _ _ Du D Dc).
  - eexists; split; [reflexivity|]. do 2 (split; [auto|]). do 2 (split; [repeat split; auto|]). split; [discriminate|split; [discriminate|]].
    apply shape_eq; auto.
Qed.

Lemma move_row_ok z o n : Inv z -> legal z (OMove o n) ->
  exists z' ef, move_row z o n = Some z' /\ step_ok z z' ef.
Proof.
  intros HI [Hl [Ho [Hn Hk]]]. unfold move_row. pose proof HI as [].
  pose proof (I_unl0 Hl) as Hs.
  destruct (Nat.ltb_spec n o) as [Hno|Hno].
  - specialize (Hk Hno).
    destruct (rot_dims_r (gd z) (gc z) (gb z) n o) as [b' [E1 [D1 H1]]]; auto; try lia.
    rewrite E1. simpl.
    destruct (move_transform z b' n o rotate_right_by_swap (rot_right_idx n o) (rot_left_idx n o))
      as [z2 [E2 [Eb [Eg [F [K [HU [HUI SH]]]]]]]]; auto; try lia.
    { intros; apply rot_dims_r; auto. }
    unfold set_u, set_ui, set_b in E2; simpl in E2. unfold set_u, set_ui, set_b; simpl.
    rewrite E2. simpl. destruct K as [K1 [K2 [K3 [K4 K5]]]].
    assert (Hp : forall a, a < nkr z -> rot_right_idx n o a < nkr z) by (intros; apply rot_right_lt; lia).
    assert (Htail : forall a k, a < gd z -> Nat.max (nkc z) (nth a (irs z) 0) <= k -> ent b' a k = 0%Z).
    { intros a k Ha Hkk. rewrite H1 by auto.
      destruct (Nat.lt_ge_cases a (nkr z)).
      - apply I_src0; [rewrite Hs; auto|lia].
      - replace (rot_right_idx n o a) with a by (unfold rot_right_idx; bdestr). apply I_tail0; auto. }
    destruct (en_g z) eqn:EG.
    + destruct (en_g_facts z HI EG) as [Dg [HG _]].
      destruct (rotate_gram_right_spec 0%Z (gd z) (gd z) (gg z) n o (nkr z)) as [g' [A1 [A2 A3]]]; auto; try lia.
      rewrite A1. simpl. eexists; exists (EPerm (rot_right_idx n o) (rot_left_idx n o)). split; [reflexivity|].
      apply step_ok_perm; simpl; rewrite ?Eb, ?K1, ?K2, ?K3, ?K4, ?K5; auto; try lia; try apply I_irs0.
      apply perm_ok_sym, perm_ok_rot; lia.
    + eexists; exists (EPerm (rot_right_idx n o) (rot_left_idx n o)). split; [reflexivity|].
      apply step_ok_perm; simpl; rewrite ?Eb, ?K1, ?K2, ?K3, ?K4, ?K5; auto; try lia; try apply I_irs0; try congruence.
      apply perm_ok_sym, perm_ok_rot; lia.
  - destruct (Nat.ltb_spec o n) as [Hon|Hon].
    2:{ exists z, ENone. split; auto. apply step_ok_refl; auto. }
    destruct (rot_dims_l (gd z) (gc z) (gb z) o n) as [b' [E1 [D1 H1]]]; auto; try lia.
    rewrite E1. simpl.
    destruct (move_transform z b' o n rotate_left_by_swap (rot_left_idx o n) (rot_right_idx o n))
      as [z2 [E2 [Eb [Eg [F [K [HU [HUI SH]]]]]]]]; auto; try lia.
    { intros; apply rot_dims_l; auto. }
    unfold set_u, set_ui, set_b in E2; simpl in E2. unfold set_u, set_ui, set_b; simpl.
    rewrite E2. simpl. destruct K as [K1 [K2 [K3 [K4 K5]]]].
    (* Gram part *)
    assert (exists z3, (if en_g z then if S o <? nkr z then
               g' <- rotate_gram_left (gg z) o (Nat.min n (nkr z - 1)) (nkr z);; Some (set_g z2 g')
             else Some z2 else Some z2) = Some z3 /\ gb z3 = b' /\ gu z3 = gu z2 /\ gui z3 = gui z2 /\
             flags_eq z z3 /\ same_known z z3 /\
             (en_g z = true -> dims (gd z) (gd z) (gg z3) /\
               forall a b, a < (if o <? nkr z then Nat.max o (if nkr z <=? n then nkr z - 1 else nkr z) else nkr z) ->
                           b < (if o <? nkr z then Nat.max o (if nkr z <=? n then nkr z - 1 else nkr z) else nkr z) ->
                 sg (gg z3) a b = sg (gg z) (rot_left_idx o n a) (rot_left_idx o n b))) as HZ3.
    { destruct (en_g z) eqn:EG.
      - destruct (en_g_facts z HI EG) as [Dg [HG _]].
        destruct (Nat.ltb_spec (S o) (nkr z)).
        + destruct (rotate_gram_left_spec 0%Z (gd z) (gd z) (gg z) o (Nat.min n (nkr z - 1)) (nkr z)) as [g' [A1 [A2 A3]]]; auto; try lia.
          rewrite A1. simpl. eexists; split; [reflexivity|]. simpl. repeat split; auto; try apply F; try apply A2.
          intros a b Ha Hb. rewrite A3.
          * f_equal; unfold rot_left_idx; revert Ha Hb; bdestr; intros; lia.
          * revert Ha; bdestr.
          * revert Hb; bdestr.
        + eexists; split; [reflexivity|]. repeat split; auto; try apply F; try apply Dg.
          { rewrite Eg. apply Dg. }
          { rewrite Eg. apply Dg. }
          rewrite Eg. intros a b Ha Hb. f_equal; unfold rot_left_idx; revert Ha Hb; bdestr; intros; lia.
      - eexists; split; [reflexivity|]. repeat split; auto; try apply F; try discriminate. }
    destruct HZ3 as [z3 [E3 [Eb3 [Eu3 [Eui3 [F3 [K' HG3]]]]]]].
    rewrite E3. simpl. destruct K' as [L1 [L2 [L3 [L4 L5]]]].
    assert (SH3 : shape z z3) by (unfold shape in *; rewrite Eu3, Eui3; exact SH).
    assert (HP : perm_ok (gd z) (rot_left_idx o n) (rot_right_idx o n)) by (apply perm_ok_rot; lia).
    assert (LI : length (irs z) = gd z) by apply I_irs0.
    destruct (Nat.leb_spec (nkr z) n) as [Hkn|Hkn].
    + destruct (rotate_left_spec (irs z) o n) as [ir1 [A1 A2]]; [lia|].
      rewrite A1. simpl.
      assert (Lir : length ir1 = gd z) by (destruct A2; lia).
      assert (Hir : forall a, a < gd z -> nth a ir1 0 = nth (rot_left_idx o n a) (irs z) 0).
      { intros a Ha. apply reidx_nth; auto; try lia. rewrite LI. apply rot_left_lt; lia. }
      destruct (Nat.ltb_spec o (nkr z)) as [Hok|Hok].
      * destruct D1 as [D1a D1b]. rewrite (nth_error_nth' b' []) by (rewrite D1a; auto). simpl.
        eexists; exists (EPerm (rot_left_idx o n) (rot_right_idx o n)). split; [reflexivity|].
        destruct (size_nz_spec (nth n b' [])) as [Z1 [Z2 Z3]].
        apply step_ok_perm; simpl; rewrite ?Eb3, ?Eu3, ?Eui3, ?L1, ?L2, ?L3, ?L4, ?L5; auto; try lia.
        -- split; auto.
        -- rewrite upd_length; auto.
        -- intros a Ha. rewrite nth_upd. destruct (((a =? n)%nat) && (n <? length ir1)).
           ++ rewrite D1b in Z1 by auto. lia.
           ++ rewrite Hir by auto. apply I_irs0. apply rot_left_lt; lia.
        -- intros a Ha. unfold rot_left_idx. bdestr.
        -- intros a k Ha Hkk. rewrite nth_upd in Hkk. rewrite Lir in Hkk.
           destruct (Nat.eqb_spec a n) as [->|Hne].
           ++ destruct (Nat.ltb_spec n (gd z)); [|lia]. cbn [andb] in Hkk.
              unfold ent. apply Z2. lia.
           ++ cbn [andb] in Hkk. rewrite H1 by auto. rewrite Hir in Hkk by auto.
              apply I_tail0; auto. apply rot_left_lt; lia.
        -- intros EG. destruct (HG3 EG) as [B1 B2]. split; auto. intros a b Ha Hb. apply B2; bdestr.
      * eexists; exists (EPerm (rot_left_idx o n) (rot_right_idx o n)). split; [reflexivity|].
        apply step_ok_perm; simpl; rewrite ?Eb3, ?Eu3, ?Eui3, ?L1, ?L2, ?L3, ?L4, ?L5; auto; try lia.
        -- intros a Ha. rewrite Hir by auto. apply I_irs0. apply rot_left_lt; lia.
        -- intros a Ha. unfold rot_left_idx. bdestr.
        -- intros a k Ha Hkk. rewrite Hir in Hkk by auto. rewrite H1 by auto. apply I_tail0; auto.
           apply rot_left_lt; lia.
    + eexists; exists (EPerm (rot_left_idx o n) (rot_right_idx o n)). split; [reflexivity|].
      apply step_ok_perm; simpl; rewrite ?Eb3, ?Eu3, ?Eui3, ?L1, ?L2, ?L3, ?L4, ?L5; auto; try lia; try apply I_irs0.
      * intros a Ha. apply rot_left_lt; lia.
      * intros a k Ha Hkk. rewrite H1 by auto.
        destruct (Nat.lt_ge_cases a (nkr z)).
        -- apply I_src0; [rewrite Hs; apply rot_left_lt; lia|lia].
        -- replace (rot_left_idx o n a) with a by (unfold rot_left_idx; bdestr). apply I_tail0; auto.
      * intros EG. destruct (HG3 EG) as [B1 B2]. split; auto. intros a b Ha Hb. apply B2; bdestr.
Qed.

(** ** Discovery, locking *)
Lemma step_ok_none z z' :
  Inv z' -> flags_eq z z' -> gb z' = gb z -> gu z' = gu z -> gui z' = gui z -> step_ok z z' ENone.
Proof.
  intros HI HF Eb Eu Eui. split; auto. split; auto. split; [exact I|].
  rewrite Eb, Eu, Eui. split; [split; auto|]. split; [intros; discriminate|]. split; [intros; split; auto|]. split; [intros; split; auto|]. apply shape_eq; auto.
Qed.

Lemma discover_row_ok z : Inv z -> legal z ODiscover ->
  exists z', discover_row z = Some z' /\ step_ok z z' ENone.
Proof.
  intros HI [Hk Hl]. unfold discover_row. pose proof HI as [].
  destruct I_irs0 as [LI HIR].
  rewrite (nth_error_nth' (irs z) 0) by lia. cbn [obind]. cbv zeta.
  set (kc := if locked z then nkc z else Nat.max (nkc z) (nth (nkr z) (irs z) 0)).
  set (sr := if locked z then nsr z else S (nkr z)).
  assert (Hkc : nkc z <= kc <= gc z).
  { subst kc. destruct (locked z); specialize (HIR (nkr z)); lia. }
  assert (HIcommon : forall g', (en_g z = true -> locked z = false /\ dims (gd z) (gd z) g' /\
        forall i j, i < S (nkr z) -> j < S (nkr z) -> sg g' i j = G (gc z) (gb z) i j) ->
     Inv (set_g (set_known z (S (nkr z)) sr kc (locked z) (irs z)) g')).
  { intros g' HG. constructor; simpl; auto; try lia.
    - split; [|split]; try lia; subst sr; destruct (locked z); unfold gd in *; simpl; lia.
    - intros E. subst sr. rewrite E. auto.
    - intros i k Hi Hkk. destruct (Nat.lt_ge_cases i (nsr z)).
      + apply I_src0; auto; lia.
      + subst sr kc. destruct (locked z) eqn:EL; [lia|].
        specialize (I_unl0 eq_refl). assert (i = nkr z) by lia. subst i. apply I_tail0; auto.
    - intros i k Hi Hkk. apply I_tail0; auto. lia.
    - intros Hs. subst kc sr. destruct (locked z); [auto|]. specialize (HIR (nkr z)). lia. }
  destruct (en_g z) eqn:EG.
  - rewrite andb_true_r in Hl. destruct (en_g_facts z HI EG) as [Dg [HG Hs]].
    assert (Hkc1 : 1 <= kc). { subst kc. rewrite Hl. specialize (HIR (nkr z)). lia. }
    destruct (ofor_inv (fun k gk => dims (gd z) (gd z) gk /\ forall a b, gent 0%Z gk a b =
        if (a =? nkr z) && ((b <? k)%nat) then G (gc z) (gb z) (nkr z) b else gent 0%Z (gg z) a b)
       (fun j g => bi <- nth_error (gb z) (nkr z);; bj <- nth_error (gb z) j;;
            v <- nv_dot_product bi bj 0 kc;; mset g (nkr z) j v) (S (nkr z)) 0 (gg z)) as [g' [E [D H]]].
    { split; auto. intros a b. bdestr. }
    { intros k s Hkk [Ds Hs'].
      rewrite (nth_error_nth' (gb z) []) by (destruct I_b0; lia). simpl.
      rewrite (nth_error_nth' (gb z) []) by (destruct I_b0; lia). simpl.
      rewrite nv_dot_product_spec; [|lia|destruct I_b0 as [_ X]; rewrite X by lia; lia|destruct I_b0 as [_ X]; rewrite X by lia; lia].
      simpl.
      destruct (mset_some 0%Z (gd z) (gd z) s (nkr z) k (inner kc (nth (nkr z) (gb z) []) (nth k (gb z) []))) as [s' [Es [Ds' Hs'']]]; auto; try lia.
      exists s'. split; auto. split; auto. intros a b. rewrite Hs'', Hs'.
      assert (inner kc (nth (nkr z) (gb z) []) (nth k (gb z) []) = G (gc z) (gb z) (nkr z) k) as ->.
      { unfold G, inner. symmetry. apply zsum_trunc; [lia|]. intros t Ht.
        enough (ent (gb z) (nkr z) t = 0%Z) as X. { unfold ent in X. rewrite X. lia. }
        apply I_tail0; auto. subst kc. rewrite Hl in Ht. lia. }
      bdestr; subst; auto. }
    rewrite E. simpl. eexists; split; [reflexivity|].
    apply step_ok_none; simpl; auto; [|repeat split].
    apply HIcommon. intros _. split; auto. split; auto.
    intros i j Hi Hj. unfold sgent. rewrite !H.
    replace (0 + S (nkr z)) with (S (nkr z)) by lia.
    destruct (Nat.leb_spec j i).
    + destruct (Nat.eqb_spec i (nkr z)); cbn [andb].
      * destruct (Nat.ltb_spec j (S (nkr z))); [|lia]. subst; auto.
      * specialize (HG i j). unfold sgent in HG. destruct (Nat.leb_spec j i); [|lia]. apply HG; lia.
    + destruct (Nat.eqb_spec j (nkr z)); cbn [andb].
      * destruct (Nat.ltb_spec i (S (nkr z))); [|lia]. subst; apply G_comm.
      * specialize (HG i j). unfold sgent in HG. destruct (Nat.leb_spec j i); [lia|]. apply HG; lia.
  - rewrite (nth_error_nth' (gb z) []) by (destruct I_b0; lia). simpl.
    eexists; split; [reflexivity|].
    apply step_ok_none; simpl; auto; [|repeat split].
    apply (HIcommon (gg z)). discriminate.
Qed.

Lemma lock_ok z : Inv z -> legal z OLock -> step_ok z (lock_cols z) ENone.
Proof.
  intros HI HL. simpl in HL. apply step_ok_none; simpl; auto; [|repeat split].
  pose proof HI as []. constructor; simpl; auto; try discriminate. congruence.
Qed.

Lemma unlock_ok z : Inv z -> step_ok z (unlock_cols z) ENone.
Proof.
  intros HI. apply step_ok_none; simpl; auto; [|repeat split].
  pose proof HI as []. constructor; simpl; auto; try lia; [unfold gd in *; simpl; lia|].
  intros EG. destruct (I_g0 EG) as [L [D H]]. split; auto. split; auto.
  intros i j Hi Hj. apply H; lia.
Qed.

(** ** negate_row_of_b: b and g only *)
Definition step_ok_neg (z z' : gz) (i : nat) : Prop :=
  Inv z' /\ flags_eq z z' /\ i < gd z /\ eff_mat (ENeg i) (gb z) (gb z') /\ gu z' = gu z /\ gui z' = gui z.

Lemma negate_ok z i : Inv z -> legal z (ONegate i) ->
  exists z', negate_row_of_b z i = Some z' /\ step_ok_neg z z' i.
Proof.
  intros HI Hi. simpl in Hi. unfold negate_row_of_b. pose proof HI as [].
  pose proof I_b0 as [HR HC].
  rewrite (nth_error_nth' (gb z) []) by lia. simpl.
  set (b' := upd (gb z) i (map Z.opp (nth i (gb z) []))).
  assert (Hb' : forall a k, ent b' a k = (if (a =? i)%nat then - ent (gb z) a k else ent (gb z) a k)%Z).
  { intros a k. unfold b'. rewrite ent_upd by lia. destruct (Nat.eqb_spec a i); auto. subst.
    unfold ent. change 0%Z with (Z.opp 0) at 1. rewrite map_nth. auto. }
  assert (Db' : dims (gd z) (gc z) b').
  { apply dims_upd; auto. rewrite map_length. auto. }
  assert (HG' : forall a b, G (gc z) b' a b = (if ((a =? i)%nat) && negb ((b =? i)%nat) || ((b =? i)%nat) && negb ((a =? i)%nat) then - G (gc z) (gb z) a b else G (gc z) (gb z) a b)%Z).
  { intros a b. rewrite !G_ent.
    replace (- zsum (gc z) (fun k => ent (gb z) a k * ent (gb z) b k))%Z with
       (zsum (gc z) (fun k => (-1) * (ent (gb z) a k * ent (gb z) b k)))%Z by (rewrite zsum_scal; lia).
    destruct (Nat.eqb_spec a i); destruct (Nat.eqb_spec b i); cbn [andb orb negb];
    apply zsum_ext; intros k Hk; rewrite !Hb'; subst; rewrite ?Nat.eqb_refl;
      try (destruct (Nat.eqb_spec a i); [lia|]); try (destruct (Nat.eqb_spec b i); [lia|]); ring. }
  assert (HIc : forall g', (en_g z = true -> dims (gd z) (gd z) g' /\
       forall a b, a < nkr z -> b < nkr z -> sg g' a b = G (gc z) b' a b) -> Inv (set_g (set_b z b') g')).
  { intros g' HG. assert (Hd : gd (set_g (set_b z b') g') = gd z) by (unfold gd; simpl; apply Db').
    constructor; rewrite ?Hd; simpl; auto.
    - intros a k Ha Hk. rewrite Hb', I_src0 by auto. destruct ((a =? i)%nat); auto.
    - intros a k Ha Hk. rewrite Hb', I_tail0 by auto. destruct ((a =? i)%nat); auto.
    - intros EG. destruct (HG EG). split; [apply I_g0; auto|]. split; auto. }
  destruct (en_g z) eqn:EG.
  - destruct (en_g_facts z HI EG) as [Dg [HG Hs]].
    destruct (ofor_inv (fun k gk => dims (gd z) (gd z) gk /\ forall a b, gent 0%Z gk a b =
        (if ((a =? i)%nat) && ((b <? i)%nat) && ((b <? k)%nat) then - gent 0 (gg z) a b
         else if ((b =? i)%nat) && ((i <? a)%nat) && ((a <? k)%nat) then - gent 0 (gg z) a b
         else gent 0 (gg z) a b)%Z)
       (fun j g => if (j <? i)%nat then x <- mget g i j;; mset g i j (- x)%Z
            else if (i <? j)%nat then x <- mget g j i;; mset g j i (- x)%Z
            else Some g) (gd z) 0 (gg z)) as [g' [E [D H]]].
    { split; auto. intros a b. bdestr. }
    { intros k s Hk [Ds Hs']. destruct (Nat.ltb_spec k i).
      - rewrite (mget_some 0%Z (gd z) (gd z)) by (auto; lia). simpl.
        destruct (mset_some 0%Z (gd z) (gd z) s i k (- gent 0 s i k)%Z) as [s' [Es [Ds' Hs'']]]; auto; try lia.
        exists s'. split; auto. split; auto. intros a b. rewrite Hs'', !Hs'. gs.
      - destruct (Nat.ltb_spec i k).
        + rewrite (mget_some 0%Z (gd z) (gd z)) by (auto; lia). simpl.
          destruct (mset_some 0%Z (gd z) (gd z) s k i (- gent 0 s k i)%Z) as [s' [Es [Ds' Hs'']]]; auto; try lia.
          exists s'. split; auto. split; auto. intros a b. rewrite Hs'', !Hs'. gs.
        + exists s. split; auto. split; auto. intros a b. rewrite Hs'. gs. }
    rewrite E. simpl. eexists; split; [reflexivity|].
    split; [|split; [|split; [|split; [|split]]]]; simpl; auto; [|repeat split|].
    + apply HIc. intros _. split; auto. intros a b Ha Hb. rewrite HG'. rewrite <- !HG by auto.
      unfold sgent. rewrite !H.
      destruct (Nat.leb_spec b a); bdestr.
    + split; [destruct Db' as [X _]; rewrite X; auto|]. auto.
  - eexists; split; [reflexivity|].
    split; [|split; [|split; [|split; [|split]]]]; simpl; auto; [|repeat split|].
    + apply (HIc (gg z)). discriminate.
    + split; [destruct Db' as [X _]; rewrite X; auto|]. auto.
Qed.

(** ** One step *)
Lemma gstep_ok z o : Inv z -> legal z o -> (forall i, o <> ONegate i) ->
  exists z' ef, gstep z o = Some z' /\ step_ok z z' ef.
Proof.
  intros HI HL HN. destruct o; simpl gstep; simpl in HL.
  - destruct (row_add_ok z i j HI HL) as [z' [E S]]; eauto.
  - destruct (row_sub_ok z i j HI HL) as [z' [E S]]; eauto.
  - destruct (row_addmul_si_ok z i j x HI HL) as [z' [E S]]; eauto.
  - destruct (row_addmul_si_2exp_ok z i j x e HI HL) as [z' [E S]]; eauto.
  - destruct (row_addmul_2exp_ok z i j x e HI HL) as [z' [E S]]; eauto.
  - apply row_addmul_we_ok; auto.
  - destruct (row_swap_ok z i j HI HL) as [z' [E S]]; eauto.
  - apply move_row_ok; auto.
  - destruct (discover_row_ok z HI HL) as [z' [E S]]; eauto.
  - eexists; eexists; split; [reflexivity|]. apply lock_ok; auto.
  - eexists; eexists; split; [reflexivity|]. apply unlock_ok; auto.
  - exfalso. eapply HN; reflexivity.
Qed.

(** the initial state *)
Lemma gso_new_inv b c u ui ig fl :
  1 <= c -> dims (length b) c b ->
  (u = [] \/ exists cu, dims (length b) cu u) -> (ui = [] \/ exists cu, dims (length b) cu ui) ->
  Inv (gso_new b c u ui ig fl).
Proof.
  intros Hc Hb Hu Hui. constructor; unfold gd; simpl; auto; try lia.
  - split; [now rewrite map_length|]. intros i Hi.
    rewrite map_nth_lt with (d := []) by auto.
    destruct (size_nz_spec (nth i b [])) as [H1 _]. destruct Hb as [_ HC]. rewrite HC in H1 by auto. lia.
  - intros i k Hi Hk. unfold ent.
    rewrite map_nth_lt with (d := []) in Hk by auto.
    destruct (size_nz_spec (nth i b [])) as [_ [H2 _]]. apply H2. lia.
  - intros _. split; auto. split; [|lia]. split; [now rewrite repeat_length|].
    intros i Hi. rewrite (nth_indep _ [] (repeat 0%Z (length b))) by (rewrite repeat_length; auto).
    rewrite nth_repeat. apply repeat_length.
  - intros E. destruct Hu as [->|Hu]; [discriminate|auto].
  - intros _ E. destruct Hui as [->|Hui]; [discriminate|auto].
Qed.
