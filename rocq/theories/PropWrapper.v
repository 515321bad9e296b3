(** Properties C34, C11, C35, C36 of the front end (wrapper.cpp, util.cpp). *)
From Coq Require Import List ZArith Lia Arith Bool QArith Qcanon.
From Verif Require Import Util LatticeSpec NumVectModel NumVectProofs MatrixModel MatrixProofs GsoModel GsoProofs GsoHistory RotateSpec
  PropGso QcUtil GsoFModel GsoFProofs GsoQ GsoWeak LllModel LllProofs LllQ PropGsoF PropLll QGs LllExact LllSpec LllSpecFacts LllDecide PropLllExact WrapperModel WrapperProofs WrapperCalls.
Import ListNotations.
Local Open Scope nat_scope.

(** * C34: zero rows *)
(** a list ends (starts) with a non-zero row, or is empty *)
Definition ends_nonzero (A : list (list Z)) : Prop := A = [] \/ exists A' r, A = A' ++ [r] /\ ~ zrow r.
Definition starts_nonzero (A : list (list Z)) : Prop := A = [] \/ exists A' r, A = r :: A' /\ ~ zrow r.
(** a transform is absent or has one row for every row of A and of Zs *)
Definition fits (A Zs U UA UZ : list (list Z)) : Prop :=
  U = [] /\ UA = [] /\ UZ = [] \/ U = UA ++ UZ /\ length UA = length A /\ length UZ = length Zs.

Lemma slice_skip (k : nat) (b : list (list Z)) : k <= length b -> slice k (length b) b = skipn k b.
Proof. intros H. unfold slice. rewrite firstn_all2; auto. rewrite skipn_length. lia. Qed.

Lemma tz_split b k : tz_loop b (length b) = Some k ->
  forall A Zs, b = A ++ Zs -> Forall zrow Zs -> ends_nonzero A -> k = length A.
Proof.
  intros E A Zs -> HZ HA. destruct (tz_loop_ok (A ++ Zs) (length (A ++ Zs)) (le_n _)) as [k' [E' [Hk [F N]]]].
  rewrite E in E'. injection E' as <-. rewrite slice_skip in F by auto.
  destruct (Nat.lt_trichotomy k (length A)) as [L|[L|L]]; auto; exfalso.
  - destruct HA as [->|[A' [r [-> NR]]]]; [cbn in L; lia|]. apply NR. rewrite app_length in L. cbn in L.
    rewrite Forall_forall in F. apply F. rewrite <- app_assoc. rewrite skipn_app.
    apply in_or_app. right. replace (k - length A') with 0 by lia. cbn. auto.
  - destruct N as [->|[row [N1 N2]]]; [lia|]. apply N2. rewrite nth_error_app2 in N1 by lia.
    apply nth_error_In in N1. rewrite Forall_forall in HZ. auto.
Qed.
Lemma lz_split b k : lz_loop b 0 (length b) = Some k ->
  forall Zs A, b = Zs ++ A -> Forall zrow Zs -> starts_nonzero A -> k = length Zs.
Proof.
  intros E Zs A -> HZ HA. destruct (lz_loop_ok (Zs ++ A) (length (Zs ++ A)) 0 eq_refl) as [k' [E' [Hk [F N]]]].
  { constructor. }
  rewrite E in E'. injection E' as <-. destruct (Nat.lt_trichotomy k (length Zs)) as [L|[L|L]]; auto; exfalso.
  - destruct N as [->|[row [N1 N2]]]; [rewrite app_length in L; lia|]. apply N2. rewrite nth_error_app1 in N1 by lia.
    apply nth_error_In in N1. rewrite Forall_forall in HZ. auto.
  - destruct HA as [->|[A' [r [-> NR]]]]; [rewrite app_nil_r in Hk; lia|]. apply NR. rewrite Forall_forall in F. apply F.
    rewrite firstn_app. apply in_or_app. right. destruct (k - length Zs) eqn:X; [lia|]. cbn. auto.
Qed.
Lemma fits_rot A Zs U UA UZ : fits A Zs U UA UZ -> rot_at (length A) U = UZ ++ UA /\ (U = [] \/ length U = length (A ++ Zs)).
Proof.
  intros [[-> [-> ->]]|[-> [L1 L2]]]; [rewrite rot_nil; auto|]. rewrite !app_length. split; [|right; lia].
  unfold rot_at. rewrite <- L1. rewrite skipn_app, skipn_all, Nat.sub_diag, firstn_app, Nat.sub_diag, firstn_all. cbn. rewrite app_nil_r. auto.
Qed.

(** zeros_first: whatever the matrix, it is A ++ Zs with Zs its maximal block of zero
    rows at the end; the result is Zs ++ A, and u and u_inv_t get exactly the same
    block exchange. *)
Theorem zeros_first_moves :
  forall b u ui, (u = [] \/ length u = length b) -> (ui = [] \/ length ui = length b) ->
  exists A Zs, b = A ++ Zs /\ Forall zrow Zs /\ ends_nonzero A /\
  forall UA UZ VA VZ, fits A Zs u UA UZ -> fits A Zs ui VA VZ ->
    zeros_first b u ui = Some (Zs ++ A, UZ ++ UA, VZ ++ VA).
Proof.
  intros b u ui Hu Hui. destruct (tz_loop_ok b (length b) (le_n _)) as [k [E [Hk [F N]]]]. rewrite slice_skip in F by auto.
  exists (firstn k b), (skipn k b). split; [symmetry; apply firstn_skipn|]. split; auto.
  assert (HA : ends_nonzero (firstn k b)).
  { destruct N as [->|[row [N1 N2]]]; [left; auto|right]. destruct k; [cbn in *|].
    - destruct b; [discriminate|]. cbn in N1. injection N1 as <-. exfalso. apply N2. rewrite Forall_forall in F. apply F. cbn. auto.
    - cbn in N1. rewrite Nat.sub_0_r in N1. exists (firstn k b), row. split; auto.
      apply nth_error_split in N1. destruct N1 as [l1 [l2 [-> N1]]]. rewrite <- N1.
      rewrite !firstn_app, firstn_all, Nat.sub_diag. replace (S (length l1) - length l1) with 1 by lia.
      rewrite firstn_all2 by lia. cbn. rewrite app_nil_r. auto. }
  split; auto. intros UA UZ VA VZ FU FV. unfold zeros_first. rewrite E. cbn [obind]. rewrite rotate_if_ok by auto.
  pose proof (proj1 (fits_rot _ _ _ _ _ FU)) as RU. pose proof (proj1 (fits_rot _ _ _ _ _ FV)) as RV.
  rewrite firstn_length_le in RU, RV by auto. rewrite RU, RV. auto.
Qed.
(** the same, in the form that names the blocks of the input *)
Theorem zeros_first_blocks :
  forall A Zs u ui UA UZ VA VZ, Forall zrow Zs -> ends_nonzero A -> fits A Zs u UA UZ -> fits A Zs ui VA VZ ->
    zeros_first (A ++ Zs) u ui = Some (Zs ++ A, UZ ++ UA, VZ ++ VA).
Proof.
  intros A Zs u ui UA UZ VA VZ HZ HA FU FV. unfold zeros_first.
  destruct (tz_loop_ok (A ++ Zs) (length (A ++ Zs)) (le_n _)) as [k [E [Hk _]]]. rewrite E. cbn [obind].
  pose proof (tz_split _ _ E A Zs eq_refl HZ HA) as ->.
  destruct (fits_rot _ _ _ _ _ FU) as [RU LU]. destruct (fits_rot _ _ _ _ _ FV) as [RV LV].
  rewrite rotate_if_ok by auto. rewrite RU, RV. f_equal. f_equal. f_equal.
  apply (fits_rot A Zs (A ++ Zs) A Zs). right. auto.
Qed.
(** zeros_last is the opposite *)
Theorem zeros_last_blocks :
  forall Zs A u ui UZ UA VZ VA, Forall zrow Zs -> starts_nonzero A -> fits Zs A u UZ UA -> fits Zs A ui VZ VA ->
    zeros_last (Zs ++ A) u ui = Some (A ++ Zs, UA ++ UZ, VA ++ VZ).
Proof.
  intros Zs A u ui UZ UA VZ VA HZ HA FU FV. unfold zeros_last.
  destruct (lz_loop_ok (Zs ++ A) (length (Zs ++ A)) 0 eq_refl) as [k [E [Hk _]]]; [constructor|]. rewrite E. cbn [obind].
  pose proof (lz_split _ _ E Zs A eq_refl HZ HA) as ->.
  destruct (fits_rot _ _ _ _ _ FU) as [RU LU]. destruct (fits_rot _ _ _ _ _ FV) as [RV LV].
  rewrite rotate_if_ok by (first [assumption|lia]). rewrite RU, RV. f_equal. f_equal. f_equal.
  apply (fits_rot Zs A (Zs ++ A) Zs A). right. auto.
Qed.
(** A zero row in the middle stays in the middle; two trailing zero rows move. *)
Example ex34 :
  let b := [[1;2];[0;0];[3;4];[0;0];[0;0]]%Z in let I5 := ident 5 in
  zeros_first b I5 [] = Some ([[0;0];[0;0];[1;2];[0;0];[3;4]]%Z, skipn 3 I5 ++ firstn 3 I5, []) /\
  Forall zrow [[0;0];[0;0]]%Z /\ ends_nonzero [[1;2];[0;0];[3;4]]%Z /\
  zeros_last [[0;0];[1;2];[0;0]]%Z [[7];[8];[9]]%Z [] = Some ([[1;2];[0;0];[0;0]]%Z, [[8];[9];[7]]%Z, []).
Proof.
  cbv zeta. split; [vm_compute; reflexivity|]. split; [repeat constructor|]. split; [|vm_compute; reflexivity].
  right. exists [[1;2];[0;0]]%Z, [3;4]%Z. split; auto. intros H. inversion H. discriminate.
Qed.

(** * C11: transforms returned by lll_reduction *)
(** transposition of a square matrix *)
Definition transposed (d : nat) (M M' : list (list Z)) : Prop :=
  forall i j, i < d -> j < d -> ent M' i j = ent M j i.

Ltac tr_cases :=
  repeat (match goal with
          | |- context [?x =? ?y] => destruct (Nat.eqb_spec x y)
          | |- context [?x <? ?y] => destruct (Nat.ltb_spec x y)
          end; try (exfalso; lia); cbn [andb orb]); subst; auto; try (exfalso; lia).
Lemma transpose_sq_ok d M : dims d d M -> exists M', transpose_sq M = Some M' /\ dims d d M' /\ transposed d M M'.
Proof.
  intros HD. unfold transpose_sq. pose proof (proj1 HD) as HL. rewrite HL. cbv zeta.
  assert (IN : forall i N, i < d -> dims d d N ->
    exists N', ofor (seq (S i) (d - S i)) (fun j M => mswap M i j j i) N = Some N' /\ dims d d N' /\
      forall a b, a < d -> b < d -> ent N' a b = if (a =? i) && (i <? b) || (b =? i) && (i <? a) then ent N b a else ent N a b).
  { intros i N Hi HN.
    destruct (ofor_inv (fun j N' => dims d d N' /\ forall a b, a < d -> b < d ->
       ent N' a b = if (a =? i) && (i <? b) && (b <? j) || (b =? i) && (i <? a) && (a <? j) then ent N b a else ent N a b)
       (fun j M => mswap M i j j i) (d - S i) (S i) N) as [N' [E [DN HN']]].
    - split; auto. intros a b Ha Hb.
      destruct (Nat.ltb_spec i b), (Nat.ltb_spec b (S i)), (Nat.ltb_spec i a), (Nat.ltb_spec a (S i)); try lia;
        rewrite ?andb_false_r; cbn [orb]; auto.
    - intros j s Hj [Ds Hs]. destruct (mswap_some 0%Z d d s i j j i) as [s' [Es [Ds' Hs']]]; auto; try lia.
      exists s'. split; auto. split; auto. intros a b Ha Hb.
      change (ent s' a b) with (gent 0%Z s' a b). rewrite Hs'. change (gent 0%Z s) with (ent s).
      rewrite !Hs by lia. clear - Hj Ha Hb. tr_cases.
    - exists N'. split; auto. split; auto. intros a b Ha Hb. rewrite HN' by auto.
      replace (S i + (d - S i)) with d by lia.
      replace (b <? d) with true by (symmetry; apply Nat.ltb_lt; auto). replace (a <? d) with true by (symmetry; apply Nat.ltb_lt; auto).
      rewrite !andb_true_r. auto. }
  destruct (ofor_inv (fun i N => dims d d N /\ forall a b, a < d -> b < d ->
     ent N a b = if Nat.min a b <? i then ent M b a else ent M a b)
     (fun i M => ofor (seq (S i) (d - S i)) (fun j M => mswap M i j j i) M) d 0 M) as [M' [E [DM HM]]].
  - split; auto.
  - intros i N Hi [DN HN]. destruct (IN i N) as [N' [E [DN' HN']]]; auto; [lia|]. exists N'. split; auto. split; auto.
    intros a b Ha Hb. rewrite HN' by auto. rewrite (HN a b), (HN b a) by auto. rewrite (Nat.min_comm b a).
    destruct (Nat.eqb_spec a i), (Nat.eqb_spec b i), (Nat.ltb_spec i b), (Nat.ltb_spec i a), (Nat.ltb_spec (Nat.min a b) i), (Nat.ltb_spec (Nat.min a b) (S i)); try lia; cbn; auto.
    subst. auto.
  - exists M'. split; auto. split; auto. intros a b Ha Hb. rewrite HM by auto.
    destruct (Nat.ltb_spec (Nat.min a b) (0 + d)); [auto|lia].
Qed.
Lemma transpose_nil : transpose_sq [] = Some [].
Proof. reflexivity. Qed.
Lemma gen_identity_ident d : gen_identity d = ident d.
Proof. reflexivity. Qed.

Section Red.
Variable envs : wcall -> nat -> env.
Variable little : Z -> Z -> bool.
Variable good_prec : Z.
Variable lg : nat -> nat -> Z.
Variable fuel : nat.
Variables (early siegel : bool) (zlong wld wqd wdpe : bool).
Variable ld_digits : Z.
Variable n : nat.
Notation lll_reduction_z := (lll_reduction_z envs little good_prec lg fuel early siegel zlong wld wqd wdpe ld_digits n (wdepth good_prec)).
Notation lll_reduction_wrapper := (lll_reduction_wrapper envs little good_prec lg fuel early siegel zlong wld wqd wdpe ld_digits n (wdepth good_prec)).

Lemma zeros_first_track b0 b u ui : track b0 n b u ui ->
  exists b' u' ui', zeros_first b u ui = Some (b', u', ui') /\ track b0 n b' u' ui' /\ length u' = length u /\ length ui' = length ui.
Proof.
  intros HT. pose proof HT as [H1 H2 H3 H4 H5]. unfold zeros_first.
  destruct (tz_loop_ok b (length b) (le_n _)) as [k [E [Hk _]]]. rewrite E. cbn [obind].
  rewrite rotate_if_ok; auto.
  - exists (rot_at k b), (rot_at k u), (rot_at k ui). split; auto. split; [apply track_rot; auto; lia|]. rewrite !rot_length. auto.
  - destruct H4 as [->|[[A _] _]]; [auto|right; lia].
  - destruct H5 as [->|[[A _] _]]; [auto|right; lia].
Qed.

(** what may come back *)
Definition good_answer (x : zres) : Prop := x <> ZStop WLoop /\ (enough fuel -> x <> ZStop (WStop OFuel)).

Lemma zf_ok m t prec b u ui : 1 <= n -> 0 < length b -> track b n b u ui ->
  exists b' u' ui' x, lll_reduction_zf envs fuel early siegel n m t prec b u ui = Some (b', u', ui', x) /\
    track b n b' u' ui' /\ length u' = length u /\ length ui' = length ui /\ good_answer x.
Proof.
  intros Hn Hd HT. unfold lll_reduction_zf, emptyb.
  replace (length b =? 0) with false by (symmetry; apply Nat.eqb_neq; lia).
  replace (n =? 0) with false by (symmetry; apply Nat.eqb_neq; lia). cbn [orb].
  destruct (run_lll_ok (envs (mkcall m t prec false) 0) fuel early siegel (zf_flags m) 0 b n b u ui Hn Hd HT) as [r [E [T' [L1 [L2 [_ [_ R3]]]]]]].
  rewrite E. cbn [obind]. eexists _, _, _, _. split; [reflexivity|]. split; auto. split; auto. split; auto.
  split; [destruct (r_out r); discriminate|]. intros HF. specialize (R3 HF). destruct (r_out r); congruence.
Qed.

Lemma z_ok m ft prec b u ui : 1 <= n -> 0 < length b -> (0 <= lg (length b) n)%Z -> track b n b u ui ->
  exists b' u' ui' x, lll_reduction_z m ft prec b u ui = Some (b', u', ui', x) /\
    (forall st, x = ZStatus st -> track b n b' u' ui' /\ length u' = length u /\ length ui' = length ui) /\ good_answer x.
Proof.
  intros Hn Hd Hlg HT. unfold WrapperModel.lll_reduction_z. destruct m as [m|].
  - assert (AB : exists b' u' ui' x, Some (b, u, ui, ZAbort) = Some (b', u', ui', x) /\
       (forall st, x = ZStatus st -> track b n b' u' ui' /\ length u' = length u /\ length ui' = length ui) /\ good_answer x).
    { eexists _, _, _, _. split; [reflexivity|]. split; [discriminate|]. split; [discriminate|]. discriminate. }
    destruct (match m with LM_PROVED => early | _ => false end); auto.
    destruct (sel_ft good_prec wqd wdpe m ft prec) as [t|]; auto.
    destruct (negb (ft_built wld wqd wdpe t)); auto.
    destruct (zf_ok m t prec b u ui Hn Hd HT) as [b1 [u1 [ui1 [x [E [T1 [L1 [L2 G]]]]]]]]. rewrite E. cbn [obind].
    destruct x.
    + destruct (zeros_first_track b b1 u1 ui1 T1) as [b2 [u2 [ui2 [-> [T2 [L3 L4]]]]]]. cbn [obind].
      eexists _, _, _, _. split; [reflexivity|]. split; auto. intros st _. split; auto. split; congruence.
    + eexists _, _, _, _. split; [reflexivity|]. split; [discriminate|auto].
    + eexists _, _, _, _. split; [reflexivity|]. split; [discriminate|auto].
  - unfold WrapperModel.lll_reduction_wrapper. destruct (negb _).
    { eexists _, _, _, _. split; [reflexivity|]. split; [discriminate|]. split; discriminate. }
    unfold wrapper_new, emptyb.
    replace (length b =? 0) with false by (symmetry; apply Nat.eqb_neq; lia).
    replace (n =? 0) with false by (symmetry; apply Nat.eqb_neq; lia). cbn [orb obind].
    set (s0 := mkwst b u ui [] false RED_SUCCESS 0 (max_exponent lg n b) []).
    destruct (wrapper_top envs little good_prec lg fuel early siegel zlong wld wqd wdpe ld_digits n b u ui Hn Hd HT s0)
      as [s' [w [-> [NL [NF [CL H]]]]]]; auto. cbn [obind fst snd].
    destruct w as [kk|o|].
    + destruct H as [[o H]|[L [y [H1 [H2 [_ [H3 _]]]]]]]; [discriminate|].
      destruct (chain_track _ _ _ _ b _ _ _ _ _ _ _ Hn Hd H3 HT) as [T1 [L1 L2]].
      destruct (zeros_first_track b _ _ _ T1) as [b2 [u2 [ui2 [-> [T2 [L3 L4]]]]]]. cbn [obind].
      eexists _, _, _, _. split; [reflexivity|]. split; [|split; discriminate]. intros st _. split; auto. split; congruence.
    + eexists _, _, _, _. split; [reflexivity|]. split; [discriminate|]. split; [discriminate|]. intros HF X. apply (NF HF). congruence.
    + congruence.
Qed.
End Red.

(** product of two d x d matrices is the identity *)
Definition mul_one (d : nat) (U V : list (list Z)) : Prop :=
  forall i j, i < d -> j < d -> zsum d (fun k => ent U i k * ent V k j)%Z = delta i j.

(** lll_reduction(b, u, u_inv) with u and u_inv not empty, any method (None = wrapper),
    float type, precision, any numerical behaviour (envs, little), success or failure:
    b' = u' b, b = v b', u' v = v u' = 1, same lattice; no out-of-bounds access; the
    call does not loop. *)
Theorem lll_reduction_transforms :
  forall envs little good_prec lg fuel early siegel zlong wld wqd wdpe ld_digits n m ft prec b u u_inv,
    1 <= n -> b <> [] -> rect n b -> (0 <= lg (length b) n)%Z -> u <> [] -> u_inv <> [] ->
    exists b' u' v x,
      lll_reduction envs little good_prec lg fuel early siegel zlong wld wqd wdpe ld_digits n (wdepth good_prec) m ft prec b u u_inv
        = Some (b', u', v, x) /\
      x <> ZStop WLoop /\ (enough fuel -> x <> ZStop (WStop OFuel)) /\
      (forall st, x = ZStatus st ->
         let d := length b in
         length b' = d /\ rect n b' /\ dims d d u' /\ dims d d v /\
         is_product n b' u' b /\ is_product n b v b' /\ mul_one d u' v /\ mul_one d v u' /\ same_lattice n b b').
Proof.
  intros envs little good_prec lg fuel early siegel zlong wld wqd wdpe ld_digits n m ft prec b u u_inv Hn Hb Hr Hlg Hu Hv.
  assert (Hd : 0 < length b) by (destruct b; [congruence|cbn; lia]).
  unfold lll_reduction. cbv zeta.
  replace (emptyb u) with false by (destruct u; [congruence|auto]). replace (emptyb u_inv) with false by (destruct u_inv; [congruence|auto]).
  rewrite gen_identity_ident.
  assert (ET : transpose_sq (ident (length b)) = Some (ident (length b))).
  { destruct (transpose_sq_ok (length b) (ident (length b)) (dims_ident _)) as [M [E [[D1 D2] T]]]. rewrite E. f_equal.
    apply nth_ext with (d := []) (d' := []); [rewrite D1, ident_length; auto|]. intros i Hi.
    destruct (dims_ident (length b)) as [I1 I2].
    apply nth_ext with (d := 0%Z) (d' := 0%Z); [rewrite D2, I2; lia|]. intros j Hj. rewrite D2 in Hj by lia.
    pose proof (T i j ltac:(lia) Hj) as X. unfold ent in X at 1. rewrite X. rewrite D1 in Hi.
    change (nth j (nth i (ident (length b)) []) 0%Z) with (ent (ident (length b)) i j).
    rewrite !ent_ident by auto. unfold delta. destruct (Nat.eqb_spec i j), (Nat.eqb_spec j i); lia. }
  rewrite ET. cbn [obind].
  assert (HT : track b n b (ident (length b)) (ident (length b))) by (apply track_start; auto).
  destruct (z_ok envs little good_prec lg fuel early siegel zlong wld wqd wdpe ld_digits n m ft prec b _ _ Hn Hd Hlg HT)
    as [b' [u' [ui' [x [-> [HX [G1 G2]]]]]]]. cbn [obind].
  destruct x as [st| |w].
  2,3: eexists _, _, _, _; split; [reflexivity|]; split; auto; split; auto; discriminate.
  destruct (HX st eq_refl) as [[H1 H2 H3 H4 H5] [L1 L2]]. rewrite ident_length in L1, L2.
  assert (u' <> []) by (intros ->; cbn in L1; lia). assert (ui' <> []) by (intros ->; cbn in L2; lia).
  destruct H4 as [?|[DU PU]]; [congruence|]. destruct H5 as [?|[DV PV]]; [congruence|]. specialize (PV ltac:(auto)).
  destruct (transpose_sq_ok _ _ DV) as [v [-> [Dv Tv]]]. cbn [obind].
  exists b', u', v, (ZStatus st). split; auto. split; auto. split; auto. intros st' _. cbv zeta.
  split; auto. split; auto. split; auto. split; auto. split; auto. split.
  { intros i j Hi Hj. rewrite (product_inverse (length b) n b' u' ui' b H1 eq_refl PU PV i j Hi Hj). rewrite H1. apply zsum_ext. intros k Hk. rewrite Tv by auto. auto. }
  destruct PV as [PV1 PV2]. split; [|split; auto].
  - intros i j Hi Hj. rewrite <- (PV1 i j Hi Hj). apply zsum_ext. intros k Hk. rewrite Tv by auto. auto.
  - intros i j Hi Hj. rewrite <- (PV2 i j Hi Hj). apply zsum_ext. intros k Hk. rewrite Tv by auto. auto.
Qed.

(** * C35: the LLL wrapper *)
(** The wrapper on a non-empty matrix, for every numerical behaviour of every inner run
    (envs), every answer of little, every precision bound: no undefined behaviour, at
    most 6 + ceil(log2 good_prec) calls; when it returns, the last call is a proved
    reduction, the calls form a chain of genuine LLL runs from (b,u,ui) to the returned
    matrices, the stored status is that of the last call, and success is reported
    exactly when the last (proved) run returned true.  The only ways not to return are
    those of a single run (exponent overflow, or the iteration bound of the model). *)
Theorem wrapper_success_is_last_proved_run :
  forall envs little good_prec lg fuel early siegel zlong wld wqd wdpe ld_digits n b u ui,
    1 <= n -> b <> [] -> rect n b -> (0 <= lg (length b) n)%Z ->
    (u = [] \/ u = ident (length b)) -> (ui = [] \/ ui = ident (length b)) ->
    exists s0 s' w, wrapper_new lg n b u ui = Some s0 /\
      wrapper_lll envs little good_prec lg fuel early siegel zlong wld wqd wdpe ld_digits n (wdepth good_prec) s0 = Some (s', w) /\
      w <> WLoop /\ (enough fuel -> w <> WStop OFuel) /\
      length (wlogs s') <= 6 + Z.to_nat (Z.log2_up good_prec) /\
      ((exists o, w = WStop o) \/
       exists L y, wlogs s' = L ++ [y] /\ c_meth (l_call y) = LM_PROVED /\ l_env y = envs (l_call y) (length L) /\
         chain fuel early siegel n b u ui (L ++ [y]) (wb s') (wu s') (wui s') /\
         wstat s' = r_status (l_res y) /\ (w = WK 1%Z \/ w = WK 0%Z) /\
         (w = WK 1%Z <-> r_out (l_res y) = OTrue) /\ (wstat s' = RED_SUCCESS <-> r_out (l_res y) = OTrue)).
Proof.
  intros envs little good_prec lg fuel early siegel zlong wld wqd wdpe ld_digits n b u ui Hn Hb Hr Hlg Hu Hui.
  assert (Hd : 0 < length b) by (destruct b; [congruence|cbn; lia]).
  pose proof (track_start b n u ui Hr Hu Hui) as HT.
  unfold wrapper_new, emptyb.
  replace (length b =? 0) with false by (symmetry; apply Nat.eqb_neq; lia).
  replace (n =? 0) with false by (symmetry; apply Nat.eqb_neq; lia). cbn [orb].
  set (s0 := mkwst b u ui [] false RED_SUCCESS 0 (max_exponent lg n b) []).
  destruct (wrapper_top envs little good_prec lg fuel early siegel zlong wld wqd wdpe ld_digits n b u ui Hn Hd HT s0)
    as [s' [w [E [NL [NF [CL H]]]]]]; auto.
  exists s0, s', w. split; [auto|]. split; [exact E|]. split; [exact NL|]. split; [exact NF|]. split; [|exact H].
  unfold wdepth in CL. lia.
Qed.

(** The function lll_reduction with the wrapper: the returned status is RED_SUCCESS
    exactly when the last proved run succeeded. *)
Theorem lll_reduction_wrapper_status :
  forall envs little good_prec lg fuel early siegel zlong wld wqd wdpe ld_digits n b u ui b' u' ui' st,
    1 <= n -> b <> [] -> rect n b -> (0 <= lg (length b) n)%Z ->
    (u = [] \/ u = ident (length b)) -> (ui = [] \/ ui = ident (length b)) ->
    lll_reduction_z envs little good_prec lg fuel early siegel zlong wld wqd wdpe ld_digits n (wdepth good_prec) None None 0 b u ui
      = Some (b', u', ui', ZStatus st) ->
    exists L y b1 u1 ui1, c_meth (l_call y) = LM_PROVED /\ l_env y = envs (l_call y) (length L) /\
      chain fuel early siegel n b u ui (L ++ [y]) b1 u1 ui1 /\
      zeros_first b1 u1 ui1 = Some (b', u', ui') /\
      st = r_status (l_res y) /\ (st = RED_SUCCESS <-> r_out (l_res y) = OTrue).
Proof.
  intros envs little good_prec lg fuel early siegel zlong wld wqd wdpe ld_digits n b u ui b' u' ui' st Hn Hb Hr Hlg Hu Hui.
  destruct (wrapper_success_is_last_proved_run envs little good_prec lg fuel early siegel zlong wld wqd wdpe ld_digits n b u ui Hn Hb Hr Hlg Hu Hui)
    as [s0 [s' [w [E0 [E1 [_ [_ [_ H]]]]]]]].
  unfold lll_reduction_z, lll_reduction_wrapper. change (negb (true && (0 =? 0)%Z)) with false. cbv iota.
  rewrite E0. cbn [obind]. rewrite E1. cbn [obind fst snd]. destruct w as [kk|o|]; [|discriminate|discriminate].
  destruct H as [[o H]|[L [y [H1 [H2 [HE [H3 [H4 [_ [_ H5]]]]]]]]]]; [discriminate|].
  destruct (zeros_first (wb s') (wu s') (wui s')) as [[[b2 u2] ui2]|] eqn:EZ; [|discriminate]. cbn [obind].
  intros X. injection X as <- <- <- <-. exists L, y, (wb s'), (wu s'), (wui s'). auto 10.
Qed.

(** End to end: if the proved runs compute exactly (heuristic and fast runs may do
    anything), a returned RED_SUCCESS means that the output consists of zero rows
    followed by linearly independent LLL-reduced rows. *)
Definition exact_env (delta eta : Qc) (E : env) : Prop :=
  exists rnd si ze expo junk iter, E = mkenv (lq_ops rnd si ze expo) junk delta eta iter.

Lemma run_exact_reduced delta eta rnd si ze expo junk iter fuel early siegel gf er b c u ui r :
  valid_input b c u ui -> 0 < length b -> (g_rowexpo gf = true -> g_intgram gf = false) ->
  (0 <= eta)%Qc -> (eta * eta < delta)%Qc ->
  run_lll (mkenv (lq_ops rnd si ze expo) junk delta eta iter) fuel early siegel gf er b c u ui = Some r -> r_out r = OTrue ->
  exists m, m <= length (r_b r) /\
    (if siegel then siegel_reduced c (r_b r) m delta eta else lll_reduced c (r_b r) m delta eta) /\
    (forall i k, m <= i < length (r_b r) -> k < c -> ent (r_b r) i k = 0%Z).
Proof.
  intros HV Hd HE He Hde E EO. unfold run_lll in E. cbv zeta in E. cbn [e_lo e_junk e_delta e_eta e_iter] in E.
  set (z := gso_new b c u ui (g_intgram gf) (g_long gf)) in *. set (lo := lq_ops rnd si ze expo) in *.
  destruct (fst_new (lf lo) (g_rowexpo gf) junk z) as [f|] eqn:Ef; cbn [obind] in E; [|discriminate].
  set (st0 := @set_er lo (@lst_new lo z f) er) in *.
  set (P := lll_par lo z (g_rowexpo gf) delta eta early siegel) in *.
  destruct (lll lo P fuel iter st0 0 0 (gd z) 0) as [[st' o]|] eqn:EL; cbn [obind fst snd] in E; [|discriminate].
  injection E as <-. cbn [r_b r_out] in *. subst o.
  pose proof (valid_input_inv b c u ui (g_intgram gf) (g_long gf) HV) as HI. fold z in HI.
  assert (HL : length (gb (lz st')) = gd z).
  { destruct (fst_new_w (lf lo) (g_rowexpo gf) junk z HI) as [f' [Ef' [FD _]]]. rewrite Ef in Ef'. injection Ef' as <-.
    destruct (lll_w lo P fuel iter st0 0 0 (gd z) 0) as [st2 [o2 [E2 [[_ [SS _]] _]]]].
    { split; auto. }
    { split. { split; [lia|exact Hd]. } split; [apply le_n|]. split; [reflexivity|]. split; [apply Nat.le_0_l|]. split; [left; auto|].
      unfold P, lll_par. cbn [p_early lz st0 set_er lst_new]. intros X. apply andb_prop in X. destruct X as [_ X].
      destruct (en_g z); [discriminate|auto]. }
    rewrite EL in E2. injection E2 as <- <-. destruct (Steps_inv _ _ HI SS) as [_ [_ G]]. unfold gd in *. cbn in G. exact G. }
  destruct (lll_exact_reduced_from rnd si ze expo (g_rowexpo gf) junk delta eta early siegel b c u ui (g_intgram gf) (g_long gf) []
     st0 fuel iter (gd z) st') as [H1 [H2 H3]]; auto.
  - exists (z, f). split; [|split; [exact I|reflexivity]]. unfold fgso_new. fold z. change (lf lo) with qc_ops in Ef. rewrite Ef. reflexivity.
  - exists (gd z - lzeros st'). split; [lia|]. split; [exact H2|]. intros i k Hi Hk. apply H3; [|auto]. rewrite HL in Hi. exact Hi.
Qed.

(** reducedness of the first m rows only depends on these rows *)
Lemma gso_of_firstn c B m bs mu : gso_of c B m bs mu -> gso_of c (firstn m B) m bs mu.
Proof.
  intros [H1 H2]. split; auto. intros i k Hi Hk. rewrite <- H1 by auto. unfold qrow, ent. rewrite nth_firstn_lt by auto. auto.
Qed.
Lemma norm2_zero c v : (forall k, k < c -> v k = 0%Qc) -> norm2 c v = 0%Qc.
Proof.
  intros H. unfold norm2, ip. rewrite qsum_ext with (g := fun _ => 0%Qc); [|intros k Hk; rewrite H by auto; ring].
  clear. induction c; cbn [qsum]; [auto|]. rewrite IHc. ring.
Qed.

Lemma zrow_ent c B i : rect c B -> i < length B -> (forall k, k < c -> ent B i k = 0%Z) -> zrow (nth i B []).
Proof.
  intros HR Hi H. apply Forall_forall. intros x Hx. apply In_nth with (d := 0%Z) in Hx. destruct Hx as [k [Hk <-]].
  apply H. rewrite HR in Hk; auto.
Qed.

Theorem lll_reduction_wrapper_reduced :
  forall envs little good_prec lg fuel early siegel zlong wld wqd wdpe ld_digits n b u ui b' u' ui' delta eta,
    1 <= n -> b <> [] -> rect n b -> (0 <= lg (length b) n)%Z ->
    (u = [] \/ u = ident (length b)) -> (ui = [] \/ ui = ident (length b)) ->
    (forall x k, c_meth x = LM_PROVED -> exact_env delta eta (envs x k)) ->
    (0 <= eta)%Qc -> (eta * eta < delta)%Qc ->
    lll_reduction_z envs little good_prec lg fuel early siegel zlong wld wqd wdpe ld_digits n (wdepth good_prec) None None 0 b u ui
      = Some (b', u', ui', ZStatus RED_SUCCESS) ->
    exists Zs A, b' = Zs ++ A /\ Forall zrow Zs /\
      (if siegel then siegel_reduced n A (length A) delta eta else lll_reduced n A (length A) delta eta) /\
      same_lattice n b b'.
Proof.
  intros envs little good_prec lg fuel early siegel zlong wld wqd wdpe ld_digits n b u ui b' u' ui' delta eta Hn Hb Hr Hlg Hu Hui HX He Hde.
  assert (Hd : 0 < length b) by (destruct b; [congruence|cbn; lia]).
  pose proof (track_start b n u ui Hr Hu Hui) as HT.
  intros EZ.
  destruct (lll_reduction_wrapper_status envs little good_prec lg fuel early siegel zlong wld wqd wdpe ld_digits n b u ui b' u' ui' RED_SUCCESS Hn Hb Hr Hlg Hu Hui EZ)
    as [L [y [b1 [u1 [ui1 [HM [HE [HC [HZ [_ HS]]]]]]]]]].
  destruct (HX (l_call y) (length L) HM) as [rnd [si [ze [expo [junk [iter EE]]]]]]. rewrite <- HE in EE.
  destruct (chain_track _ _ _ _ b _ _ _ _ _ _ _ Hn Hd HC HT) as [T1 _].
  assert (X : exists b2 u2 ui2, track b n b2 u2 ui2 /\ b2 = l_b y /\ u2 = l_u y /\ ui2 = l_ui y /\ genuine fuel early siegel n y /\ b1 = r_b (l_res y)).
  { remember (L ++ [y]) as LL eqn:EL. destruct HC as [|L' x HC G]; [destruct L; discriminate|].
    apply app_inj_tail in EL. destruct EL as [-> ->]. destruct (chain_track _ _ _ _ b _ _ _ _ _ _ _ Hn Hd HC HT) as [T2 _].
    eexists _, _, _. split; [exact T2|]. auto. }
  destruct X as [b2 [u2 [ui2 [T2 [-> [-> [-> [G ->]]]]]]]]. unfold genuine in G. rewrite EE in G.
  pose proof (track_valid _ _ _ _ _ Hn T2) as HV.
  destruct (run_exact_reduced delta eta rnd si ze expo junk iter fuel early siegel (call_flags (c_meth (l_call y)) (c_prec (l_call y))) _ _ n _ _ _ HV ltac:(rewrite (t_len _ _ _ _ _ T2); auto)
     ltac:(rewrite HM; discriminate) He Hde G (proj1 HS eq_refl)) as [m [Hm [HR H0]]].
  set (B := r_b (l_res y)) in *.
  destruct T1 as [TL TB TLat TU TUi].
  assert (EB : B = firstn m B ++ skipn m B) by (symmetry; apply firstn_skipn).
  assert (FZ : Forall zrow (skipn m B)).
  { apply Forall_forall. intros v Hv. apply In_nth with (d := []) in Hv. destruct Hv as [i [Hi <-]]. rewrite skipn_length in Hi.
    rewrite nth_skipn_add. apply (zrow_ent n); auto; [lia|]. intros k Hk. apply H0; auto. lia. }
  assert (HA : ends_nonzero (firstn m B)).
  { destruct m; [left; auto|]. right. exists (firstn m B), (nth m B []). split.
    - destruct (nth_error B m) as [v|] eqn:Ev; [|apply nth_error_None in Ev; lia].
      rewrite (nth_error_nth B m [] Ev). apply nth_error_split in Ev. destruct Ev as [l1 [l2 [-> Ev]]]. rewrite <- Ev.
      rewrite !firstn_app, firstn_all, Nat.sub_diag. replace (S (length l1) - length l1) with 1 by lia. rewrite firstn_all2 by lia. cbn. rewrite app_nil_r. auto.
    - intros Z. assert (P : forall i, i < S m -> (0 < qR n B i i)%Qc).
      { destruct siegel; [apply siegel_reduced_q in HR|apply lll_reduced_q in HR]; apply HR. }
      assert (Q : independent n B (S m)) by (apply pos_independent; auto).
      assert (X : (1 = 0)%Qc); [|discriminate].
      specialize (Q (fun i => if i =? m then 1%Qc else 0%Qc)). cbn beta in Q.
      assert (HQ : forall k, k < n -> qsum (S m) (fun i => (if i =? m then 1 else 0) * qrow B i k)%Qc = 0%Qc).
      { intros k Hk. rewrite qsum_ext with (g := fun _ => 0%Qc).
        + generalize (S m). clear. induction n as [|q IH]; cbn [qsum]; [auto|]. rewrite IH. ring.
        + intros i Hi. destruct (Nat.eqb_spec i m); [|ring]. subst i. unfold qrow, ent.
          unfold zrow in Z. rewrite Forall_forall in Z. rewrite (Z (nth k (nth m B []) 0%Z)); [change (Qcz 0) with 0%Qc; ring|]. apply nth_In. rewrite TB; auto. }
      specialize (Q HQ m ltac:(lia)). rewrite Nat.eqb_refl in Q. exact Q. }
  exists (skipn m B), (firstn m B).
  assert (EZ1 : b' = skipn m B ++ firstn m B).
  { assert (FT : forall U, U = [] \/ length U = length b -> fits (firstn m B) (skipn m B) U (firstn m U) (skipn m U)).
    { intros U [->|HU]; [left; destruct m; auto|right]. split; [symmetry; apply firstn_skipn|]. rewrite !skipn_length, !firstn_length. lia. }
    pose proof (zeros_first_blocks (firstn m B) (skipn m B) u1 ui1 _ _ _ _ FZ HA (FT u1 ltac:(destruct TU as [->|[[? _] _]]; auto)) (FT ui1 ltac:(destruct TUi as [->|[[? _] _]]; auto))) as Y.
    rewrite <- EB in Y. rewrite Y in HZ. congruence. }
  split; [exact EZ1|]. split; [exact FZ|]. split.
  - rewrite firstn_length_le by auto. destruct siegel.
    + destruct HR as [bs [mu [HG HR]]]. exists bs, mu. split; auto. apply gso_of_firstn. auto.
    + destruct HR as [bs [mu [HG HR]]]. exists bs, mu. split; auto. apply gso_of_firstn. auto.
  - eapply same_lattice_trans; [exact TLat|]. rewrite EZ1.
    eapply eff_mat_lattice; [|apply (rot_eff m B Hm)]. apply rp_ok. auto.
Qed.

(** ** Examples for C11 and C35 *)
(** an environment with exact arithmetic, and one in which every division is "not
    finite", so that the GSO fails on the first non-trivial row *)
Definition ex_exact : env := mkenv lqx 0%Qc (q_of 99 100) (q_of 51 100) (fun _ => 100).
Definition bad_fops : fops := mkfops Z (fun x => x) (fun x => (x, 0%Z)) (fun a _ => a) Z.mul Z.sub Z.div (fun s a b => s + a * b)%Z (fun _ _ => false).
Definition bad_lops : lops :=
  mklops bad_fops Z.gtb Z.ltb (fun a => (0 <? a)%Z) Z.abs Z.opp (fun a => (a =? 0)%Z) (fun a _ => a)
         (fun a _ => (a, 0)) (fun a _ => (a, 0)) (fun _ => 0%Z).
Definition ex_bad : env := mkenv bad_lops 0%Z 1%Z 1%Z (fun _ => 100).
(** only proved runs are numerically sound *)
Definition ex_envs (x : wcall) (_ : nat) : env := match c_meth x with LM_PROVED => ex_exact | _ => ex_bad end.
(** 3 rows, one of them dependent *)
Definition ex_b : list (list Z) := [[1;0;1345];[0;1;35];[0;0;0];[1;1;1380]]%Z.
Definition one4 : list (list Z) := ident 4.

(** wrapper, transforms requested: fast runs fail, then heuristic, then proved runs
    succeed; the dependent row becomes a zero row in front *)
Example ex11_wrapper :
  match lll_reduction ex_envs (fun _ _ => false) 60 (fun _ _ => 3%Z) 50 false false true true true true 64 3 (wdepth 60) None None 0 ex_b one4 one4 with
  | Some (b', u', v, ZStatus st) => Some (b', u', v, st)
  | _ => None
  end = Some ([[0;0;0];[0;0;0];[0;1;35];[1;-38;15]],
              [[0;0;1;0];[-1;-1;0;1];[0;1;0;0];[1;-38;0;0]],
              [[0;0;38;1];[0;0;1;0];[1;0;0;0];[0;1;39;1]], RED_SUCCESS)%Z.
Proof. vm_compute. reflexivity. Qed.
(** the calls made: three failing fast runs, heuristic runs at increasing precision
    (all fail), a proved run, the last proved run *)
Example ex35_calls :
  match wrapper_new (fun _ _ => 3%Z) 3 ex_b one4 one4 with
  | Some s0 =>
      match wrapper_lll ex_envs (fun _ _ => false) 60 (fun _ _ => 3%Z) 50 false false true true true true 64 3 (wdepth 60) s0 with
      | Some (s, WK k) => Some (map (fun x => (c_meth (l_call x), c_ft (l_call x), c_prec (l_call x), r_status (l_res x))) (wlogs s), k)
      | _ => None
      end
  | None => None
  end = Some ([(LM_FAST, TDouble, 0%Z, RED_GSO_FAILURE); (LM_FAST, TLongDouble, 0%Z, RED_GSO_FAILURE);
               (LM_FAST, TDD, 0%Z, RED_GSO_FAILURE); (LM_HEURISTIC, TMpfr, 60%Z, RED_GSO_FAILURE);
               (LM_PROVED, TDD, 60%Z, RED_SUCCESS); (LM_PROVED, TDD, 60%Z, RED_SUCCESS)], 1%Z).
Proof. vm_compute. reflexivity. Qed.
(** without transforms the first reduction works on a copy of type long *)
Example ex35_long :
  match wrapper_new (fun _ _ => 3%Z) 3 ex_b [] [] with
  | Some s0 =>
      match wrapper_lll ex_envs (fun _ _ => false) 60 (fun _ _ => 3%Z) 50 false false true true true true 64 3 (wdepth 60) s0 with
      | Some (s, WK k) => Some (map (fun x => (c_meth (l_call x), c_long (l_call x), r_status (l_res x))) (wlogs s), k, wb s)
      | _ => None
      end
  | None => None
  end = Some ([(LM_HEURISTIC, true, RED_GSO_FAILURE); (LM_PROVED, true, RED_SUCCESS)], 1%Z,
              [[0;1;35];[1;-38;15];[0;0;0];[0;0;0]]%Z).
Proof. vm_compute. reflexivity. Qed.
(** when the proved runs fail, failure is reported *)
Example ex35_failure :
  match lll_reduction_z (fun _ _ => ex_bad) (fun _ _ => false) 200 (fun _ _ => 3%Z) 50 false false true true true true 64 3 (wdepth 200) None None 0 ex_b [] [] with
  | Some (_, _, _, ZStatus st) => Some st
  | _ => None
  end = Some RED_GSO_FAILURE.
Proof. vm_compute. reflexivity. Qed.
Example ex35_hyps : 1 <= 3 /\ ex_b <> [] /\ rect 3 ex_b /\ (0 <= 3)%Z /\
  (forall x k, c_meth x = LM_PROVED -> exact_env (q_of 99 100) (q_of 51 100) (ex_envs x k)) /\
  (0 <= q_of 51 100)%Qc /\ (q_of 51 100 * q_of 51 100 < q_of 99 100)%Qc.
Proof.
  split; [lia|]. split; [discriminate|]. split; [ex_rect|]. split; [lia|]. split.
  - intros x k H. unfold ex_envs. rewrite H. exists qrnd, qint, qint, qexpo, 0%Qc, (fun _ => 100). reflexivity.
  - split; [apply qltb_ge; vm_compute; reflexivity|apply qltb_lt; vm_compute; reflexivity].
Qed.

(** Outside the hypotheses: an empty matrix.  The constructor converts log2(0) to int
    (undefined behaviour), while the other methods return RED_SUCCESS at once. *)
Theorem lll_wrapper_empty_refuted :
  exists b n, rect n b /\
    (forall envs little good_prec lg fuel early siegel zlong wld wqd wdpe ld_digits k,
       lll_reduction_z envs little good_prec lg fuel early siegel zlong wld wqd wdpe ld_digits n k None None 0 b [] [] = None) /\
    (forall envs little good_prec lg fuel early siegel zlong wld wqd wdpe ld_digits k,
       lll_reduction_z envs little good_prec lg fuel early siegel zlong wld wqd wdpe ld_digits n k (Some LM_FAST) None 0 b [] []
       = Some ([], [], [], ZStatus RED_SUCCESS)).
Proof. exists [], 3. split; [intros i Hi; cbn in Hi; lia|]. split; intros; reflexivity. Qed.

(** Outside the hypotheses of C11: only u_inv requested (u empty).  The row operations
    do not touch u_inv, so it does not describe the change of basis. *)
Theorem lll_reduction_only_inverse_refuted :
  exists b b' v, lll_reduction (fun _ _ => ex_exact) (fun _ _ => false) 60 (fun _ _ => 3%Z) 50 false false true true true true 64 2 (wdepth 60)
      (Some LM_PROVED) None 0 b [] (ident 2) = Some (b', [], v, ZStatus RED_SUCCESS) /\
    ~ is_product 2 b v b'.
Proof.
  exists [[1;0];[4;1]]%Z, [[1;0];[0;1]]%Z, (ident 2). split; [vm_compute; reflexivity|].
  intros H. specialize (H 1 0 ltac:(cbn; lia) ltac:(lia)). vm_compute in H. discriminate.
Qed.

(** * C36: the HLLL wrapper *)
Lemma hloop_ok run good_prec : forall k s p, depth_ok good_prec k p ->
  exists s' r, hlll_proved_loop run good_prec k s p = Some (s', r) /\ hstat s' = hstat s /\
    exists L, hcalls s' = hcalls s ++ L /\ length L <= k.
Proof.
  induction k as [|k IH]; intros s p HD; [destruct HD; lia|]. cbn [hlll_proved_loop].
  set (x := run TMpfr true p (length (hcalls s))). unfold call_hlll. cbn [fst snd]. fold x.
  assert (X : exists L, hcalls s ++ [(TMpfr, true, p, x)] = hcalls s ++ L /\ length L <= S k).
  { eexists. split; [reflexivity|cbn; lia]. }
  destruct (is_success x); [eexists _, _; split; [reflexivity|]; split; auto|].
  destruct (Z.ltb_spec p good_prec).
  - destruct (IH (mkhst (hstat s) (hcalls s ++ [(TMpfr, true, p, x)])) (increase_prec good_prec p)) as [s' [r [E [HS [L [HL HN]]]]]].
    { apply depth_step; auto. }
    exists s', r. split; auto. split; auto. exists ((TMpfr, true, p, x) :: L). cbn [hcalls] in HL. rewrite HL, <- app_assoc. split; [auto|cbn; lia].
  - eexists _, _. split; [reflexivity|]. split; auto.
Qed.

(** The wrapper always returns, after at most 6 + ceil(log2 good_prec) calls, and its
    status is ALWAYS RED_SUCCESS, for every sequence of inner outcomes; the bool
    returned by Wrapper::hlll is true exactly when the last reduction FAILED. *)
Theorem hlll_wrapper_status_constant :
  forall run good_prec wld wqd wdpe ld_digits, (0 < ld_digits)%Z ->
  exists s r, wrapper_hlll run good_prec wld wqd wdpe ld_digits (wdepth good_prec) false (mkhst RED_SUCCESS []) = Some (s, r) /\
    hlll_reduction_wrapper run good_prec wld wqd wdpe ld_digits (wdepth good_prec) false = Some (s, RED_SUCCESS) /\
    length (hcalls s) <= 6 + Z.to_nat (Z.log2_up good_prec) /\
    exists L ft p x, hcalls s = L ++ [(ft, true, p, x)] /\ (r = true <-> x <> RED_SUCCESS).
Proof.
  intros run good_prec wld wqd wdpe ld_digits Hld.
  set (s0 := mkhst RED_SUCCESS []). unfold hlll_reduction_wrapper. fold s0.
  assert (W : exists s r, wrapper_hlll run good_prec wld wqd wdpe ld_digits (wdepth good_prec) false s0 = Some (s, r) /\ hstat s = RED_SUCCESS /\
    length (hcalls s) <= 6 + Z.to_nat (Z.log2_up good_prec) /\ exists L ft p x, hcalls s = L ++ [(ft, true, p, x)] /\ (r = true <-> x <> RED_SUCCESS)).
  { unfold wrapper_hlll. cbv zeta.
    set (r1 := call_hlll run s0 TDouble false 0).
    assert (A1 : hstat (fst r1) = RED_SUCCESS /\ length (hcalls (fst r1)) <= 1) by (cbn; auto).
    set (r2 := if wld && negb (snd r1) then call_hlll run (fst r1) TLongDouble false 0 else r1).
    assert (A2 : hstat (fst r2) = RED_SUCCESS /\ length (hcalls (fst r2)) <= 2).
    { unfold r2. destruct (wld && negb (snd r1)); [|split; [apply A1|lia]]. unfold call_hlll. cbn [fst hstat hcalls]. rewrite app_length. cbn [length]. split; [apply A1|lia]. }
    set (r3 := if wqd && negb (snd r2) then call_hlll run (fst r2) TDD false 0 else r2).
    assert (A3 : hstat (fst r3) = RED_SUCCESS /\ length (hcalls (fst r3)) <= 3).
    { unfold r3. destruct (wqd && negb (snd r2)); [|split; [apply A2|lia]]. unfold call_hlll. cbn [fst hstat hcalls]. rewrite app_length. cbn [length]. split; [apply A2|lia]. }
    set (p3 := (if wqd && negb (snd r2) then PREC_DD else if wld && negb (snd r1) then ld_digits else DBL_DIGITS)%Z).
    assert (A4 : exists s4 q, (if negb (snd r3) then hlll_proved_loop run good_prec (wdepth good_prec) (fst r3) p3 else Some (fst r3, 0%Z)) = Some (s4, q) /\
       hstat s4 = RED_SUCCESS /\ length (hcalls s4) <= 3 + wdepth good_prec).
    { destruct (negb (snd r3)).
      - destruct (hloop_ok run good_prec (wdepth good_prec) (fst r3) p3) as [s4 [q [E [HS [L [HL HN]]]]]].
        + pose proof (wdepth_ok good_prec p3 ltac:(left; unfold p3, PREC_DD, DBL_DIGITS; destruct (wqd && _), (wld && _); lia)) as X.
          apply depth_up in X. replace (S (wdepth good_prec - 1)) with (wdepth good_prec) in X by (unfold wdepth; lia). exact X.
        + exists s4, q. split; auto. split; [rewrite HS; apply A3|]. rewrite HL, app_length. lia.
      - eexists _, _. split; [reflexivity|]. split; [apply A3|lia]. }
    destruct A4 as [s4 [q [-> [HS HL]]]]. cbn [obind fst].
    assert (A5 : exists ft x, last_hlll run good_prec wqd wdpe s4 = (mkhst RED_SUCCESS (hcalls s4 ++ [(ft, true, good_prec, x)]), is_success x)).
    { unfold last_hlll. destruct (wdpe && (good_prec <=? DBL_DIGITS)%Z); [|destruct (wdpe && wqd && (good_prec <=? PREC_DD)%Z)];
        unfold call_hlll; rewrite HS; eexists _, _; reflexivity. }
    destruct A5 as [ft [x ->]]. eexists _, _. split; [reflexivity|]. split; [reflexivity|]. cbn [fst snd hcalls]. split.
    - rewrite app_length. cbn [length]. unfold wdepth in HL. lia.
    - exists (hcalls s4), ft, good_prec, x. split; auto. destruct x; cbn; split; congruence. }
  destruct W as [s [r [E [HS [HL HC]]]]]. exists s, r. split; auto. split; auto. rewrite E. cbn [obind fst]. rewrite HS. auto.
Qed.

(** C36 is false: every inner Householder reduction fails, yet the status returned by
    hlll_reduction is RED_SUCCESS.  (call_hlll stores the status in a local variable.) *)
Theorem hlll_wrapper_reports_failure_refuted :
  exists run good_prec wld wqd wdpe ld_digits s,
    hlll_reduction_wrapper run good_prec wld wqd wdpe ld_digits (wdepth good_prec) false = Some (s, RED_SUCCESS) /\
    hcalls s <> [] /\ Forall (fun c => snd c <> RED_SUCCESS) (hcalls s).
Proof.
  exists (fun _ _ _ _ => RED_GSO_FAILURE), 300%Z, true, true, true, 64%Z. eexists. split; [vm_compute; reflexivity|].
  split; [discriminate|]. cbn [hcalls]. repeat constructor; discriminate.
Qed.

Print Assumptions zeros_first_moves.
Print Assumptions zeros_last_blocks.
Print Assumptions lll_reduction_transforms.
Print Assumptions wrapper_success_is_last_proved_run.
Print Assumptions lll_reduction_wrapper_reduced.
Print Assumptions lll_wrapper_empty_refuted.
Print Assumptions lll_reduction_only_inverse_refuted.
Print Assumptions hlll_wrapper_status_constant.
Print Assumptions hlll_wrapper_reports_failure_refuted.
