(** Proofs about create_rows / remove_last_rows of MatGSO. *)
From Coq Require Import List ZArith Lia Arith Bool.
From Verif Require Import Util LatticeSpec NumVectModel NumVectProofs MatrixModel MatrixProofs
  GsoModel GsoProofs GsoFModel GsoFSpec GsoFProofs GramModel GsoRowsModel.
Import ListNotations.
Local Open Scope nat_scope.

Section P.
Variable fo : fops.
Variable en_e : bool.
Variable junk : F fo.

(** storage is consistent with the counters; every row is known *)
Record rwf_ (x : gr fo) (al : nat) : Prop := {
  W_c : 1 <= gc (rz x);
  W_b : rect (gc (rz x)) (gb (rz x));
  W_al : gd (rz x) <= al;
  W_irs : length (irs (rz x)) = al /\ forall i, i < al -> nth i (irs (rz x)) 0 <= gc (rz x);
  W_kc : nkc (rz x) <= gc (rz x);
  W_g : en_g (rz x) = true -> dims al al (gg (rz x));
  W_gf : en_g (rz x) = false -> dims al al (fgf (rs x)) /\ dims al (gc (rz x)) (fbf (rs x));
  W_re : length (fre (rs x)) = al;
  W_vc : length (fvc (rs x)) = al
}.

Record rwf (x : gr fo) : Prop := {
  R_w : rwf_ x (ralloc x);
  R_pos : forall i, i < ralloc x -> 1 <= nth i (irs (rz x)) 0;
  R_mu : length (fmu (rs x)) = ralloc x;
  R_kc : 0 < nkr (rz x) -> 1 <= nkc (rz x);
  R_l : locked (rz x) = false
}.

Lemma grow_dims {A} (d : A) n m M : dims n m (grow d n m M).
Proof.
  unfold grow. split; [apply map_seq_length|].
  intros i Hi. rewrite nth_map_seq by auto. apply map_seq_length.
Qed.

Lemma vgrow_length {A} (d : A) n v : length v <= n -> length (vgrow d n v) = n.
Proof. intros. unfold vgrow. rewrite app_length, repeat_length. lia. Qed.
Lemma vgrow_nth {A} (d e : A) n v i : i < length v -> nth i (vgrow d n v) e = nth i v e.
Proof. intros. unfold vgrow. now rewrite app_nth1. Qed.

Lemma update_bf_dims z s i al :
  i < al -> dims al (gc z) (fbf s) -> length (fre s) = al -> length (irs z) = al ->
  i < length (gb z) -> length (nth i (gb z) []) = gc z ->
  nkc z <= gc z -> nth i (irs z) 0 <= gc z ->
  exists s', update_bf fo en_e z s i = Some s' /\ dims al (gc z) (fbf s') /\ length (fre s') = al /\
    fmu s' = fmu s /\ fr s' = fr s /\ fgf s' = fgf s /\ fvc s' = fvc s.
Proof.
  intros Hi HD HL HI Hb HR HK HIR. unfold update_bf. destruct HD as [LD RD].
  rewrite (nth_error_nth' (irs z) 0) by lia. cbn [obind].
  rewrite (nth_error_nth' (gb z) []) by lia. cbn [obind].
  rewrite (nth_error_nth' (fbf s) []) by lia. cbn [obind].
  set (n := Nat.max (nkc z) (nth i (irs z) 0)). assert (Hn : n <= gc z) by lia.
  rewrite HR, RD by auto. replace (gc z <? n) with false by (symmetry; apply Nat.ltb_ge; lia). cbn [orb].
  assert (L : forall new : list (F fo), length new = n -> length (new ++ skipn n (nth i (fbf s) [])) = gc z).
  { intros new Hnew. rewrite app_length, skipn_length, RD by auto. lia. }
  destruct en_e.
  - rewrite (nth_error_nth' (fre s) 0%Z) by lia. cbn [obind]. eexists; split; [reflexivity|].
    cbn [set_bf fbf fre fmu fr fgf fvc]. rewrite upd_length.
    split; [|auto 10]. apply dims_upd; [split; auto|]. apply L. rewrite !map_length, firstn_length, HR. lia.
  - eexists; split; [reflexivity|]. cbn [set_bf fbf fre fmu fr fgf fvc].
    split; [|auto 10]. apply dims_upd; [split; auto|]. apply L. rewrite map_length, firstn_length, HR. lia.
Qed.

Lemma realloc_ok x : rwf_ x (ralloc x) \/ (gd (rz x) > ralloc x /\
    exists B, rwf_ (mkgr (set_b (rz x) B) (rs x) (ralloc x) (rucols x)) (ralloc x) /\
      rect (gc (rz x)) (gb (rz x))) ->
  let x1 := realloc fo junk x in
  rwf_ x1 (ralloc x1) /\ ralloc x1 = Nat.max (ralloc x) (gd (rz x)) /\
  gb (rz x1) = gb (rz x) /\ gc (rz x1) = gc (rz x) /\ gu (rz x1) = gu (rz x) /\ en_g (rz x1) = en_g (rz x) /\
  en_t (rz x1) = en_t (rz x) /\ locked (rz x1) = locked (rz x) /\
  nkr (rz x1) = nkr (rz x) /\ nkc (rz x1) = nkc (rz x) /\
  (forall i, i < ralloc x -> nth i (irs (rz x1)) 0 = nth i (irs (rz x)) 0) /\
  (length (fmu (rs x)) = ralloc x -> length (fmu (rs x1)) = ralloc x1).
Proof.
  intros H. unfold realloc. cbv zeta. destruct (Nat.ltb_spec (ralloc x) (gd (rz x))) as [Hlt|Hge].
  - destruct H as [H|[_ [B [H HR]]]]; [pose proof (W_al _ _ H); lia|]. destruct H. cbn [rz rs ralloc rucols set_b set_g gb gc gg gu gui en_g en_t en_i force_long nkr nsr nkc locked irs] in *.
    destruct W_irs0 as [LI HI].
    assert (HIN : forall i, i < ralloc x -> nth i (vgrow 0 (gd (rz x)) (irs (rz x))) 0 = nth i (irs (rz x)) 0).
    { intros i Hi. apply vgrow_nth. lia. }
    split; [|split; [|split; [|split; [|split; [|split; [|split; [|split; [|split; [|split; [|split]]]]]]]]]];
      cbn [rz rs ralloc rucols set_known fbf fgf fre fvc fmu gb gc gg gu gui en_g en_t en_i force_long nkr nsr nkc locked irs];
      try (destruct (en_g (rz x)) eqn:?; cbn; first [reflexivity | congruence]); try lia.
    + constructor; cbn [rz rs ralloc rucols set_known fbf fgf fre fvc fmu gb gc gg gu gui en_g en_t en_i force_long nkr nsr nkc locked irs].
      * destruct (en_g (rz x)); auto.
      * destruct (en_g (rz x)); auto.
      * unfold gd; destruct (en_g (rz x)); cbn; lia.
      * replace (gc (if en_g (rz x) then set_g (rz x) (mat_grow (gd (rz x)) (gd (rz x)) (gg (rz x))) else rz x)) with (gc (rz x)) by (destruct (en_g (rz x)); auto).
        split; [apply vgrow_length; lia|]. intros i Hi.
        destruct (Nat.lt_ge_cases i (ralloc x)); [rewrite HIN by auto; apply HI; auto|].
        unfold vgrow. rewrite app_nth2 by lia. rewrite nth_repeat. lia.
      * replace (gc (if en_g (rz x) then set_g (rz x) (mat_grow (gd (rz x)) (gd (rz x)) (gg (rz x))) else rz x)) with (gc (rz x)) by (destruct (en_g (rz x)); auto). auto.
      * destruct (en_g (rz x)) eqn:EG; [|cbn; congruence]. intros _. cbn [set_g gg]. apply (grow_dims 0%Z).
      * destruct (en_g (rz x)) eqn:EG; [cbn; congruence|]. intros _. split; apply grow_dims.
      * apply vgrow_length. lia.
      * apply vgrow_length. lia.
    + exact HIN.
    + intros _. destruct (grow_dims junk (gd (rz x)) (gd (rz x)) (fmu (rs x))); auto.
  - destruct H as [H|[X _]]; [|lia]. split; auto. split; [lia|]. repeat split; auto.
Qed.

(** the loop of size_increased *)
Lemma init_row_ok i x al : rwf_ x al -> i < gd (rz x) ->
  exists x', init_row fo en_e i x = Some x' /\ rwf_ x' al /\ ralloc x' = ralloc x /\
  gb (rz x') = gb (rz x) /\ gc (rz x') = gc (rz x) /\ gu (rz x') = gu (rz x) /\ en_g (rz x') = en_g (rz x) /\
  en_t (rz x') = en_t (rz x) /\ locked (rz x') = locked (rz x) /\
  nkr (rz x') = nkr (rz x) /\ nkc (rz x') = nkc (rz x) /\ fmu (rs x') = fmu (rs x) /\
  forall k, nth k (irs (rz x')) 0 = if (k =? i)%nat then Nat.max (size_nz (nth i (gb (rz x)) [])) 1 else nth k (irs (rz x)) 0.
Proof.
  intros HW Hi. pose proof HW as []. destruct W_irs0 as [LI HI]. unfold init_row.
  rewrite (nth_error_nth' (gb (rz x)) []) by (unfold gd in *; lia). cbn [obind].
  rewrite (nth_error_nth' (irs (rz x)) 0) by lia. cbn [obind].
  set (v := Nat.max (size_nz (nth i (gb (rz x)) [])) 1).
  assert (Hv : v <= gc (rz x)).
  { subst v. destruct (size_nz_spec (nth i (gb (rz x)) [])) as [H1 _]. rewrite W_b0 in H1 by auto. lia. }
  set (z1 := set_known (rz x) (nkr (rz x)) (nsr (rz x)) (nkc (rz x)) (locked (rz x)) (upd (irs (rz x)) i v)).
  assert (HN : forall k, nth k (irs z1) 0 = if (k =? i)%nat then v else nth k (irs (rz x)) 0).
  { intros k. subst z1. cbn [set_known irs]. rewrite nth_upd.
    destruct (Nat.eqb_spec k i); cbn [andb]; auto. destruct (Nat.ltb_spec i (length (irs (rz x)))); auto. lia. }
  assert (HZ : length (irs z1) = al /\ forall k, k < al -> nth k (irs z1) 0 <= gc (rz x)).
  { split; [subst z1; cbn [set_known irs]; now rewrite upd_length|]. intros k Hk. rewrite HN.
    destruct (k =? i); auto. }
  destruct (en_g (rz x)) eqn:EG.
  - eexists; split; [reflexivity|].
    split; [|subst z1; repeat (split; [first [reflexivity | exact EG]|]); exact HN].
    constructor; cbn [rz rs]; auto. intros E. subst z1. cbn [set_known en_g] in E. congruence.
  - destruct (W_gf0 eq_refl) as [DG DB]. pose proof DB as [LB RB].
    rewrite (nth_error_nth' (fbf (rs x)) []) by lia. cbn [obind].
    set (s1 := set_bf fo (rs x) (upd (fbf (rs x)) i (repeat (f_ofZ fo 0) (length (nth i (fbf (rs x)) [])))) (fre (rs x))).
    destruct (update_bf_dims z1 s1 i al) as [s' [E [D1 [L1 [M1 [M2 [M3 M4]]]]]]]; auto; try lia; try apply HZ; try (apply W_b0; auto; fail).
    { subst s1. cbn [set_bf fbf]. apply dims_upd; auto. rewrite repeat_length. apply RB; lia. }
    { lia. }
    rewrite E. cbn [obind]. eexists; split; [reflexivity|]. cbn [rz rs ralloc].
    split; [|subst z1; repeat (split; [first [reflexivity | exact EG | exact M1]|]); exact HN].
    constructor; cbn [rz rs]; auto.
    + intros E'. subst z1. cbn [set_known en_g] in E'. congruence.
    + intros _. rewrite M3. auto.
    + rewrite M4. auto.
Qed.

(** discovering the zero row i = nkr *)
Lemma rdiscover_zero x : rwf x -> nkr (rz x) < gd (rz x) ->
  (forall k, ent (gb (rz x)) (nkr (rz x)) k = 0%Z) ->
  exists x', rdiscover fo x = Some x' /\ rwf x' /\ ralloc x' = ralloc x /\
    gb (rz x') = gb (rz x) /\ gc (rz x') = gc (rz x) /\ gu (rz x') = gu (rz x) /\ en_g (rz x') = en_g (rz x) /\
    en_t (rz x') = en_t (rz x) /\
    nkr (rz x') = S (nkr (rz x)) /\
    (en_g (rz x) = true -> forall a b, gent 0%Z (gg (rz x')) a b =
       if (a =? nkr (rz x))%nat && (b <=? nkr (rz x))%nat then 0%Z else gent 0%Z (gg (rz x)) a b).
Proof.
  intros [HW HP HM HK HL] Hk Hz. pose proof HW as []. destruct W_irs0 as [LI HI].
  set (i := nkr (rz x)) in *.
  unfold rdiscover, fdiscover_row, discover_row. cbv zeta. fold i.
  rewrite (nth_error_nth' (irs (rz x)) 0) by lia. cbn [obind]. rewrite HL.
  set (kc := Nat.max (nkc (rz x)) (nth i (irs (rz x)) 0)).
  assert (Hkc : 1 <= kc <= gc (rz x)). { specialize (HI i); specialize (HP i). subst kc. lia. }
  destruct (en_g (rz x)) eqn:EG.
  - specialize (W_g0 eq_refl).
    destruct (ofor_inv (fun k gk => dims (ralloc x) (ralloc x) gk /\ forall a b, gent 0%Z gk a b =
        if (a =? i)%nat && (b <? k)%nat then 0%Z else gent 0%Z (gg (rz x)) a b)
       (fun j g => bi <- nth_error (gb (rz x)) i;; bj <- nth_error (gb (rz x)) j;;
            v <- nv_dot_product bi bj 0 kc;; mset g i j v) (S i) 0 (gg (rz x))) as [g' [E [D H]]].
    { split; auto. intros a b. destruct (a =? i)%nat; auto. }
    { intros k s Hk' [Ds Hs]. unfold gd in *.
      rewrite (nth_error_nth' (gb (rz x)) []) by lia. cbn [obind].
      rewrite (nth_error_nth' (gb (rz x)) []) by lia. cbn [obind].
      rewrite nv_dot_product_spec; [|lia|rewrite W_b0 by lia; lia|rewrite W_b0 by lia; lia]. cbn [obind].
      assert (inner kc (nth i (gb (rz x)) []) (nth k (gb (rz x)) []) = 0%Z) as ->.
      { unfold inner. apply zsum_0. intros t Ht. specialize (Hz t). unfold ent in Hz. rewrite Hz. ring. }
      destruct (mset_some 0%Z (ralloc x) (ralloc x) s i k 0%Z) as [s' [Es [Ds' Hs']]]; auto; try lia.
      exists s'. split; auto. split; auto. intros a b. rewrite Hs', Hs.
      bdestr; subst; auto. }
    rewrite E. cbn [obind]. rewrite (nth_error_nth' (fvc (rs x)) 0) by (unfold gd in *; lia). cbn [obind].
    eexists; split; [reflexivity|]. cbn [fst snd rz rs ralloc].
    split; [|split; [reflexivity|split; [reflexivity|split; [reflexivity|split; [reflexivity|split; [exact EG|split; [reflexivity|split; [reflexivity|]]]]]]]].
    + constructor; cbn; auto; try lia. constructor; cbn; auto; try lia; try congruence. now rewrite upd_length.
    + intros _ a b. cbn [set_g set_known gg]. rewrite H. replace (0 + S i) with (S i) by lia.
      replace (b <? S i)%nat with (b <=? i)%nat by (bdestr). auto.
  - destruct (W_gf0 eq_refl) as [DG DB].
    rewrite (nth_error_nth' (gb (rz x)) []) by (unfold gd in *; lia). cbn [obind].
    destruct (invalidate_gram_row_ok fo (ralloc x) (rs x) i DG ltac:(lia)) as [s' [E [D [M1 [M2 [M3 [M4 [M5 _]]]]]]]].
    rewrite E. cbn [obind]. rewrite M5. rewrite (nth_error_nth' (fvc (rs x)) 0) by (unfold gd in *; lia). cbn [obind].
    eexists; split; [reflexivity|]. cbn [fst snd rz rs ralloc].
    split; [|split; [reflexivity|split; [reflexivity|split; [reflexivity|split; [reflexivity|split; [exact EG|split; [reflexivity|split; [reflexivity|congruence]]]]]]]].
    constructor; cbn [set_known set_vc fmu irs nkr nkc locked rs rz ralloc]; auto; try lia; try congruence.
    constructor; cbn [set_known set_vc fmu irs nkr nkc locked rs rz ralloc gc gb en_g gg fgf fbf fre fvc]; auto; try lia; try congruence.
    + intros _. rewrite M3. auto.
    + now rewrite upd_length.
Qed.

Lemma discover_all_zero n : forall x, rwf x -> nkr (rz x) + n = gd (rz x) ->
  (forall i k, nkr (rz x) <= i -> ent (gb (rz x)) i k = 0%Z) ->
  exists x', discover_all fo n x = Some x' /\ rwf x' /\ ralloc x' = ralloc x /\
    gb (rz x') = gb (rz x) /\ gc (rz x') = gc (rz x) /\ gu (rz x') = gu (rz x) /\ en_g (rz x') = en_g (rz x) /\
    en_t (rz x') = en_t (rz x) /\
    nkr (rz x') = gd (rz x) /\
    (en_g (rz x) = true -> forall a b, b <= a < gd (rz x) -> gent 0%Z (gg (rz x')) a b =
       if (nkr (rz x) <=? a)%nat then 0%Z else gent 0%Z (gg (rz x)) a b).
Proof.
  induction n; intros x HW Hn Hz; cbn [discover_all].
  - destruct (Nat.ltb_spec (nkr (rz x)) (gd (rz x))); [lia|].
    exists x. repeat (split; [auto; try lia|]). intros _ a b Hab.
    destruct (Nat.leb_spec (nkr (rz x)) a); auto; lia.
  - destruct (Nat.ltb_spec (nkr (rz x)) (gd (rz x))); [|lia].
    destruct (rdiscover_zero x HW) as [x1 [E [W1 [A1 [B1 [B2 [B3 [B4 [B5 [B6 B7]]]]]]]]]]; auto.
    rewrite E. cbn [obind].
    assert (G1 : gd (rz x1) = gd (rz x)) by (unfold gd; congruence).
    destruct (IHn x1) as [x' [E' [W' [A' [C1 [C2 [C3 [C4 [C5 [C6 C7]]]]]]]]]]; auto; try lia.
    { intros i k Hi. rewrite B1. apply Hz. lia. }
    rewrite E'. exists x'. split; auto. split; auto.
    repeat (split; [congruence|]). intros EG a b Hab.
    rewrite C7 by (try congruence; lia). rewrite B6, B7 by auto.
    bdestr.
Qed.
End P.
