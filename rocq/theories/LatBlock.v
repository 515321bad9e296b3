(** Gram determinants of the first rows under the operations of LLL and of the insertions into blocks.
    Not part of the model (proofs for PropBkzSlide.v). *)
From Coq Require Import List ZArith QArith Qcanon Lia Lqa Arith Bool.
From Verif Require Import Util QcUtil LatticeSpec MatrixModel MatrixProofs GsoModel GsoProofs GsoHistory GsoFModel GsoFSpec GsoFProofs GsoQ QGs
  LllModel LllQ LllExact LllDecide LllSpec LllSpecFacts GramDet LatPot LllTotal LllKeep
  EnumModel EnumExact EnumSpec EnumLink EvalModel EnumCall PropEnum BkzModel BkzProofs PropBkz BlockAct BkzExactModel BkzSpec LatProj BkzExact BkzHkz BkzTotal
  EnumDual BkzDualModel BkzDualSpec DualLat BkzDual.
Import ListNotations.
Local Open Scope nat_scope.

(** ** a block replaced by an equivalent one *)
Lemma block_det c D B B' k m n : (forall a, a < D -> a < k \/ k + m <= a -> nth a B' [] = nth a B []) ->
  (forall a, a < m -> exists X : nat -> Z, forall t, t < c -> ent B (k + a) t = zsum m (fun b => X b * ent B' (k + b) t)%Z) ->
  (forall a, a < m -> exists X : nat -> Z, forall t, t < c -> ent B' (k + a) t = zsum m (fun b => X b * ent B (k + b) t)%Z) ->
  n <= D -> n <= k \/ k + m <= n -> gram_det c B' n = gram_det c B n.
Proof.
  intros HO HV HU Hn [H|H].
  { apply gram_det_same. intros i Hi. apply HO; lia. }
  destruct (fin_choice (fun _ : nat => 0%Z) m _ HU) as [U HU']. destruct (fin_choice (fun _ : nat => 0%Z) m _ HV) as [V HV']. clear HU HV.
  assert (G : forall (W : nat -> nat -> Z) (A A' : list (list Z)), (forall a, a < D -> a < k \/ k + m <= a -> nth a A' [] = nth a A []) ->
    (forall a, a < m -> forall t, t < c -> ent A' (k + a) t = zsum m (fun b => W a b * ent A (k + b) t)%Z) ->
    forall i t, i < n -> t < c -> ent A' i t = zsum n (fun a => (if (k <=? i)%nat && (i <? k + m)%nat then (if (k <=? a)%nat && (a <? k + m)%nat then W (i - k)%nat (a - k)%nat else 0) else if (a =? i)%nat then 1 else 0) * ent A a t)%Z).
  { intros W A A' HO' HW i t Hi Ht. destruct (Nat.leb_spec k i); [destruct (Nat.ltb_spec i (k + m))|]; cbn [andb].
    - replace i with (k + (i - k)) at 1 by lia. rewrite HW by lia.
      replace n with (k + m + (n - (k + m))) by lia. rewrite !zsum_split. rewrite (zsum_0 k), (zsum_0 (n - (k + m))).
      + rewrite Z.add_0_l, Z.add_0_r. apply zsum_ext. intros b Hb. destruct (Nat.leb_spec k (k + b)); [|lia]. destruct (Nat.ltb_spec (k + b) (k + m)); [|lia]. cbn [andb]. replace (k + b - k) with b by lia. auto.
      + intros b Hb. destruct (Nat.leb_spec k (k + m + b)); [|lia]. destruct (Nat.ltb_spec (k + m + b) (k + m)); [lia|]. cbn [andb]. ring.
      + intros b Hb. destruct (Nat.leb_spec k b); [lia|]. cbn [andb]. ring.
    - rewrite (zsum_single n i); auto; [rewrite Nat.eqb_refl; unfold ent; rewrite HO' by lia; ring|]. intros b Hb Hne. destruct (Nat.eqb_spec b i); [lia|ring].
    - rewrite (zsum_single n i); auto; [rewrite Nat.eqb_refl; unfold ent; rewrite HO' by lia; ring|]. intros b Hb Hne. destruct (Nat.eqb_spec b i); [lia|ring]. }
  eapply gram_det_equiv.
  - intros i t Hi Ht. apply (G U B B' HO HU' i t Hi Ht).
  - intros i t Hi Ht. refine (G V B' B _ HV' i t Hi Ht). intros a Ha Ho. symmetry. apply HO; auto.
Qed.
