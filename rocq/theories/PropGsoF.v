(** C05, C06: the floating-point caches of the GSO object. *)
From Coq Require Import List ZArith QArith Qcanon Lia Arith Bool.
From Verif Require Import Util QcUtil LatticeSpec NumVectModel MatrixModel MatrixProofs
  GsoModel GsoProofs GsoHistory GsoFModel GsoFSpec GsoFProofs GsoQ PropGso.
Import ListNotations.
Local Open Scope nat_scope.

(** The state after construction: MatGSO(b, u, u_inv_t, flags). [junk] is the
    content of the uninitialised cells of mu and r. *)
Definition fgso_new (fo : fops) (en_e : bool) (junk : F fo) b c u ui ig fl : option (gz * fst_ fo) :=
  let z := gso_new b c u ui ig fl in
  match fst_new fo en_e junk z with Some s => Some (z, s) | None => None end.

Lemma fgso_new_ok fo en_e junk b c u ui ig fl : flaws fo en_e -> valid_input b c u ui ->
  exists s, fgso_new fo en_e junk b c u ui ig fl = Some (gso_new b c u ui ig fl, s) /\
            FInv fo en_e (gso_new b c u ui ig fl) s.
Proof.
  intros L HV. destruct (fst_new_ok fo en_e L junk (gso_new b c u ui ig fl)) as [s [E HF]].
  - apply valid_input_inv; auto.
  - reflexivity.
  - reflexivity.
  - exists s. unfold fgso_new. rewrite E. auto.
Qed.

(** * C05 *)
(** Legal histories never reach an undefined access, and every coefficient that
    may be read equals the value obtained by the defining recursion directly
    from the current basis, for any floating-point type, any content of
    uninitialised memory and any success/failure of updates. *)
Theorem gso_cache_is_reference :
  forall fo en_e junk b c u ui int_gram fl zs0 h,
    flaws fo en_e -> (en_e = true -> int_gram = false) ->
    valid_input b c u ui ->
    fgso_new fo en_e junk b c u ui int_gram fl = Some zs0 ->
    flegal_run fo en_e zs0 h ->
    exists zs, frun fo en_e zs0 h = Some zs /\
      let B := gb (fst zs) in
      let G := gram_ref fo en_e int_gram c B in
      let e i := encexp fo en_e (nth i B []) in
      forall i j, valid_coeff fo zs i j ->
        get_r_exp fo en_e zs i j = Some (refR fo G i j, if en_e then (e i + e j)%Z else 0%Z) /\
        (j < i -> get_mu_exp fo en_e zs i j = Some (refM fo G i j, if en_e then (e i - e j)%Z else 0%Z)).
Proof.
  intros fo en_e junk b c u ui ig fl zs0 h L He HV E0 HL.
  destruct (fgso_new_ok fo en_e junk b c u ui ig fl L HV) as [s [E HF]].
  rewrite E in E0. injection E0 as <-.
  destruct (frun_ok fo en_e L h _ s HF HL) as [z' [s' [Er [HF' Fl]]]].
  exists (z', s'). split; [exact Er|]. cbv zeta. cbn [fst]. intros i j Hv.
  destruct Fl as [Fc [Fg _]]. simpl in Fc, Fg.
  pose proof (coeff_reference fo en_e L z' s' i j HF') as X. rewrite Fg, Fc in X. apply X; auto.
Qed.

(** Two objects (e.g. one with a long history, the other freshly created for the
    current basis) that hold the same basis report the same coefficients. *)
Theorem gso_cache_transparent :
  forall fo en_e int_gram c junk1 b1 u1 ui1 fl1 zs1 h1 zs1' junk2 b2 u2 ui2 fl2 zs2 h2 zs2',
    flaws fo en_e -> (en_e = true -> int_gram = false) ->
    valid_input b1 c u1 ui1 -> fgso_new fo en_e junk1 b1 c u1 ui1 int_gram fl1 = Some zs1 ->
    flegal_run fo en_e zs1 h1 -> frun fo en_e zs1 h1 = Some zs1' ->
    valid_input b2 c u2 ui2 -> fgso_new fo en_e junk2 b2 c u2 ui2 int_gram fl2 = Some zs2 ->
    flegal_run fo en_e zs2 h2 -> frun fo en_e zs2 h2 = Some zs2' ->
    gb (fst zs1') = gb (fst zs2') ->
    forall i j, valid_coeff fo zs1' i j -> valid_coeff fo zs2' i j ->
      get_r_exp fo en_e zs1' i j = get_r_exp fo en_e zs2' i j /\
      (j < i -> get_mu_exp fo en_e zs1' i j = get_mu_exp fo en_e zs2' i j).
Proof.
  intros fo en_e ig c k1 b1 u1 ui1 fl1 zs1 h1 zs1' k2 b2 u2 ui2 fl2 zs2 h2 zs2' L He
    V1 N1 L1 R1 V2 N2 L2 R2 HB i j VC1 VC2.
  destruct (gso_cache_is_reference _ _ _ _ _ _ _ _ _ _ _ L He V1 N1 L1) as [y1 [E1 H1]].
  destruct (gso_cache_is_reference _ _ _ _ _ _ _ _ _ _ _ L He V2 N2 L2) as [y2 [E2 H2]].
  rewrite R1 in E1. injection E1 as <-. rewrite R2 in E2. injection E2 as <-.
  destruct (H1 i j VC1) as [A1 A2]. destruct (H2 i j VC2) as [B1 B2].
  rewrite HB in A1, A2. split; [congruence|]. intros Hj. rewrite A2, B2; auto.
Qed.

(** After a successful update_gso_row(i, last_j) the coefficients up to last_j
    may be read (so the two theorems above apply to them). *)
Theorem gso_update_makes_valid :
  forall fo en_e junk b c u ui int_gram fl zs0 h z s i last_j z' s',
    flaws fo en_e -> valid_input b c u ui ->
    fgso_new fo en_e junk b c u ui int_gram fl = Some zs0 ->
    flegal_run fo en_e zs0 h -> frun fo en_e zs0 h = Some (z, s) ->
    flegal fo (z, s) (FUpdate i last_j) ->
    update_gso_row fo z s i last_j = Some (z', s', true) ->
    gb z' = gb z /\ forall j, j <= last_j -> valid_coeff fo (z', s') i j.
Proof.
  intros fo en_e junk b c u ui ig fl zs0 h z s i lj z' s' L HV E0 HL HR HU EU.
  destruct (fgso_new_ok fo en_e junk b c u ui ig fl L HV) as [s0 [E HF]].
  rewrite E in E0. injection E0 as <-.
  destruct (frun_ok fo en_e L h _ s0 HF HL) as [z1 [s1 [Er [HF1 Fl]]]].
  rewrite HR in Er. injection Er as <- <-.
  destruct (update_gso_row_ok fo en_e L z s i lj HF1 HU) as [z2 [s2 [ok [E2 [HF2 [_ [Hb [HX _]]]]]]]].
  rewrite EU in E2. injection E2 as <- <- <-. split; auto. intros j Hj.
  specialize (HX eq_refl). unfold valid_coeff. cbn [fst snd].
  destruct HU as [H1 [H2 [H3 [H4 H5]]]]. repeat split; try lia.
  unfold update_gso_row in EU. destruct (Nat.leb_spec (nkr z) i).
  - destruct (fdiscover_row fo z s) as [[za sa]|] eqn:ED; cbn [obind] in EU; [|discriminate].
    destruct (nth_error (fvc sa) i); cbn [obind] in EU; [|discriminate].
    destruct (update_loop fo za sa i _ _) as [[sb []]|]; cbn [obind] in EU; try discriminate.
    injection EU as <- _. unfold fdiscover_row in ED. destruct (discover_row z) as [zb|] eqn:EZ; cbn [obind] in ED; [|discriminate].
    destruct (if en_g z then _ else _); cbn [obind] in ED; [|discriminate].
    destruct (nth_error _ _) in ED; cbn [obind] in ED; [|discriminate]. injection ED as <- _.
    destruct (discover_known z zb EZ) as [_ [_ [K _]]]. lia.
  - cbn [obind] in EU. destruct (nth_error (fvc s) i); cbn [obind] in EU; [|discriminate].
    destruct (update_loop fo z s i _ _) as [[sb []]|]; cbn [obind] in EU; try discriminate.
    injection EU as <- _. lia.
Qed.

(** Non-trivial instance: a floating-point type with rounding (numbers are
    multiples of 2^-4, products and quotients are truncated), basis [ex_b],
    a history with row operations, moves, partial updates, and set_r. *)
Definition fx_ops : fops := {|
  F := Z;
  f_ofZ := fun x => (x * 16)%Z;
  f_exp := fun x => ((x * 16)%Z, 0%Z);
  f_mul2 := fun a k => Z.shiftl a k;
  f_mul := fun a b => Z.shiftr (a * b) 4;
  f_sub := Z.sub;
  f_div := fun a b => (16 * a / b)%Z;
  f_addmul := fun s a b => (s + Z.shiftr (a * b) 4)%Z;
  f_fin := fun a b => negb (b =? 0)%Z
|}.
Lemma fx_laws en_e : flaws fx_ops en_e.
Proof.
  constructor; cbn [F f_ofZ f_exp f_mul2 f_mul f_sub f_div f_addmul f_fin fx_ops fst snd].
  - intros. f_equal. lia.
  - intros. f_equal. f_equal. lia.
  - intros. simpl. rewrite Z.shiftr_0_l. lia.
  - intros. reflexivity.
  - intros. apply Z.shiftl_0_l.
  - intros. lia.
Qed.
Definition ex_fhist : list (fop fx_ops) :=
  [FUpdate 0 0; FUpdate 1 1; FTrans 1 2 [ORowSub 1 0]; FUpdate 1 1; FUpdate 2 2; FUpdate 3 2;
   FMove 3 1; FUpdate 1 1; FUpdate 2 1; FTrans 2 3 [OAddmulSi 2 0 (-3)%Z; ONegate 2]; FUpdate 2 2; FMove 0 3; FUpdate 0 0;
   FUpdate 1 1; FUpdate 2 2; FUpdate 3 3].
Definition ex_fhist2 : list (fop fx_ops) := [FUpdate 0 0; FUpdate 1 1; FUpdate 2 2; FUpdate 3 3].

Definition flegalb (fo : fops) (feq : F fo -> F fo -> bool) (zs : gz * fst_ fo) (o : fop fo) : bool :=
  let '(z, s) := zs in
  match o with
  | FTrans f l ops => (f <=? l) && (l <=? nkr z) && legal_runb z ops && forallb (fun o =>
      match o with
      | ORowAdd i _ | ORowSub i _ | OAddmulSi i _ _ | OAddmulSi2 i _ _ _
      | OAddmul2 i _ _ _ | OAddmulWe i _ _ _ _ _ | ONegate i => (f <=? i) && (i <? l)
      | OSwap i j => (f <=? i) && (i <? l) && ((f <=? j) && (j <? l))
      | _ => false end) ops
  | FMove a b => legalb z (OMove a b)
  | FUpdate i lj =>
      (i <? gd z) && (i <=? nkr z) && (negb (i =? nkr z) || legalb z ODiscover) && (lj <=? i) &&
      (lj <? (if (i =? nkr z) && negb (locked z) then S (nkr z) else nsr z)) &&
      forallb (fun j => negb (j <? i) || (j <? nth j (fvc s) 0)) (seq 0 (S lj))
  | FSetR i j x => (i <? nkr z) && (j <? nsr z) && (j <=? nth i (fvc s) 0) && (j =? i) &&
      match r_value fo z s i j with Some y => feq y x | None => false end
  | FDiscover => legalb z ODiscover
  | FLock => legalb z OLock
  | FUnlock => true
  end.
Fixpoint flegal_runb fo en_e feq (zs : gz * fst_ fo) (l : list (fop fo)) : bool :=
  match l with
  | [] => true
  | o :: l' => flegalb fo feq zs o && match fstep fo en_e zs o with Some zs' => flegal_runb fo en_e feq zs' l' | None => true end
  end.
Lemma flegalb_ok fo feq zs o : (forall x y, feq x y = true -> x = y) -> flegalb fo feq zs o = true -> flegal fo zs o.
Proof.
  intros HE. destruct zs as [z s]. destruct o; cbn [flegalb flegal].
  - rewrite !andb_true_iff. intros [[[H1 H2] H3] H4]. apply Nat.leb_le in H1. apply Nat.leb_le in H2.
    split; [lia|]. split; [apply legal_runb_ok; auto|]. rewrite forallb_forall in H4. apply Forall_forall.
    intros o Ho. specialize (H4 o Ho). destruct o; cbn [op_in_range]; try discriminate H4;
      rewrite ?andb_true_iff, ?Nat.leb_le, ?Nat.ltb_lt in H4; lia.
  - apply (legalb_ok z (OMove old_r new_r)).
  - rewrite !andb_true_iff, !Nat.ltb_lt, !Nat.leb_le, forallb_forall. intros [[[[[H1 H2] H3] H4] H5] H6].
    split; auto. split; auto. split.
    { intros ->. rewrite Nat.eqb_refl in H3. apply (legalb_ok z ODiscover); auto. }
    split; auto. split; auto. intros j Hj1 Hj2. specialize (H6 j). rewrite in_seq in H6. specialize (H6 ltac:(lia)).
    apply orb_true_iff in H6. rewrite negb_true_iff, Nat.ltb_ge, Nat.ltb_lt in H6. lia.
  - rewrite !andb_true_iff, !Nat.ltb_lt, !Nat.leb_le, Nat.eqb_eq. intros [[[[H1 H2] H3] H4] H5].
    repeat (split; auto). destruct (r_value fo z s i j); [|discriminate]. f_equal. auto.
  - apply (legalb_ok z ODiscover).
  - apply (legalb_ok z OLock).
  - auto.
Qed.
Lemma flegal_runb_ok fo en_e feq l : (forall x y, feq x y = true -> x = y) -> forall zs,
  flegal_runb fo en_e feq zs l = true -> flegal_run fo en_e zs l.
Proof.
  intros HE. induction l as [|o l IH]; simpl; auto. intros zs H. apply andb_true_iff in H. destruct H as [H1 H2].
  split; [eapply flegalb_ok; eauto|]. destruct (fstep fo en_e zs o); auto.
Qed.

(** hypotheses of [gso_cache_transparent] are met, with differing junk *)
Definition rows_eqb (A B : list (list Z)) : bool := if list_eq_dec (list_eq_dec Z.eq_dec) A B then true else false.
Definition valid_coeffb fo (zs : gz * fst_ fo) i j : bool :=
  (i <? nkr (fst zs)) && (j <=? i) && (j <? nth i (fvc (snd zs)) 0).
Lemma valid_coeffb_ok fo zs i j : valid_coeffb fo zs i j = true -> valid_coeff fo zs i j.
Proof. unfold valid_coeffb, valid_coeff. rewrite !andb_true_iff, !Nat.ltb_lt, Nat.leb_le. tauto. Qed.
Lemma rows_eqb_ok A B : rows_eqb A B = true -> A = B.
Proof. unfold rows_eqb. destruct (list_eq_dec _ A B); congruence. Qed.

Definition ex_cache_check : bool :=
  match fgso_new fx_ops false 999%Z ex_b 3 [] [] false false with
  | Some zs1 => flegal_runb fx_ops false Z.eqb zs1 ex_fhist &&
    match frun fx_ops false zs1 ex_fhist with
    | Some zs1' =>
      negb (rows_eqb (gb (fst zs1')) ex_b) && valid_coeffb fx_ops zs1' 3 1 &&
      match fgso_new fx_ops false (-7)%Z (gb (fst zs1')) 3 [] [] false false with
      | Some zs2 => flegal_runb fx_ops false Z.eqb zs2 ex_fhist2 &&
        match frun fx_ops false zs2 ex_fhist2 with
        | Some zs2' => rows_eqb (gb (fst zs1')) (gb (fst zs2')) && valid_coeffb fx_ops zs2' 3 1 &&
            match get_mu_exp fx_ops false zs1' 3 1 with Some (x, _) => negb (x =? 0)%Z | None => false end
        | None => false end
      | None => false end
    | None => false end
  | None => false end.

Example ex_cache_transparent_hyps :
  exists zs1 zs1' zs2 zs2' m,
    fgso_new fx_ops false 999%Z ex_b 3 [] [] false false = Some zs1 /\ flegal_run fx_ops false zs1 ex_fhist /\
    frun fx_ops false zs1 ex_fhist = Some zs1' /\
    fgso_new fx_ops false (-7)%Z (gb (fst zs1')) 3 [] [] false false = Some zs2 /\ flegal_run fx_ops false zs2 ex_fhist2 /\
    frun fx_ops false zs2 ex_fhist2 = Some zs2' /\
    gb (fst zs1') <> ex_b /\ gb (fst zs1') = gb (fst zs2') /\
    valid_coeff fx_ops zs1' 3 1 /\ valid_coeff fx_ops zs2' 3 1 /\
    get_mu_exp fx_ops false zs1' 3 1 = Some m /\ fst m <> 0%Z.
Proof.
  assert (H : ex_cache_check = true) by (vm_compute; reflexivity). unfold ex_cache_check in H.
  destruct (fgso_new fx_ops false 999%Z _ _ _ _ _ _) as [zs1|]; [|discriminate].
  apply andb_true_iff in H. destruct H as [H1 H].
  destruct (frun fx_ops false zs1 ex_fhist) as [zs1'|] eqn:E1; [|discriminate].
  rewrite !andb_true_iff in H. destruct H as [[H2 H3] H].
  destruct (fgso_new fx_ops false (-7)%Z _ _ _ _ _ _) as [zs2|] eqn:E2; [|discriminate].
  apply andb_true_iff in H. destruct H as [H4 H].
  destruct (frun fx_ops false zs2 ex_fhist2) as [zs2'|] eqn:E3; [|discriminate].
  rewrite !andb_true_iff in H. destruct H as [[H5 H6] H7].
  destruct (get_mu_exp fx_ops false zs1' 3 1) as [[x e]|] eqn:EM; [|discriminate].
  exists zs1, zs1', zs2, zs2', (x, e). split; auto.
  split; [apply (flegal_runb_ok fx_ops false Z.eqb); [apply Z.eqb_eq|auto]|].
  split; auto. split; auto. split; [apply (flegal_runb_ok fx_ops false Z.eqb); [apply Z.eqb_eq|auto]|].
  split; auto. split. { intros X. rewrite X in H2. unfold rows_eqb in H2. destruct (list_eq_dec _ _ _); [discriminate|congruence]. }
  split; [apply rows_eqb_ok; auto|]. split; [apply valid_coeffb_ok; auto|]. split; [apply valid_coeffb_ok; auto|].
  split; auto. cbn [fst]. intros X. change (F fx_ops) with Z in x. rewrite X in H7. discriminate.
Qed.

(** * C06 *)
Local Open Scope Qc_scope.

(** Value of get_mu / get_r with exact rationals as floating-point type. *)
Definition mu_of en_e (zs : gz * fst_ qc_ops) i j : Qc := match get_mu qc_ops en_e zs i j with Some x => x | None => 0 end.
Definition r_of en_e (zs : gz * fst_ qc_ops) i j : Qc := match get_r qc_ops en_e zs i j with Some x => x | None => 0 end.

(** <v,w> over the c columns *)
Definition qinner (c : nat) (v w : nat -> Qc) : Qc := qsum c (fun k => v k * w k).
(** row i of the basis, as rationals *)
Definition brow (B : list (list Z)) (i k : nat) : Qc := Qcz (ent B i k).

Ltac qfix :=
  match goal with |- @eq _ ?a ?b => change (@eq Qc a b) end;
  repeat match goal with
  | |- context [refR qc_ops ?G ?i ?j] => let x := fresh "x" in pose (x := (refR qc_ops G i j : Qc)); change (refR qc_ops G i j) with x; clearbody x
  | |- context [refM qc_ops ?G ?i ?j] => let x := fresh "x" in pose (x := (refM qc_ops G i j : Qc)); change (refM qc_ops G i j) with x; clearbody x
  end.
Ltac qring := qfix; ring.
Ltac qfield := qfix; field.

Theorem gso_exact_is_gram_schmidt :
  forall en_e junk b c u ui int_gram fl zs0 h zs D bstar,
    (en_e = true -> int_gram = false) ->
    valid_input b c u ui ->
    fgso_new qc_ops en_e junk b c u ui int_gram fl = Some zs0 ->
    flegal_run qc_ops en_e zs0 h -> frun qc_ops en_e zs0 h = Some zs ->
    (* the coefficients of the first D rows have been computed *)
    (forall i, (i < D)%nat -> valid_coeff qc_ops zs i i) ->
    (* bstar_i := b_i - sum_(j<i) get_mu(i,j) bstar_j *)
    (forall i k, (i < D)%nat -> (k < c)%nat ->
       bstar i k = brow (gb (fst zs)) i k - qsum i (fun j => mu_of en_e zs i j * bstar j k)) ->
    (* then the bstar_i are pairwise orthogonal ... *)
    (forall i j, (i < D)%nat -> (j < D)%nat -> i <> j -> qinner c (bstar i) (bstar j) = 0) /\
    (* ... get_r(i,i) is the squared norm of bstar_i ... *)
    (forall i, (i < D)%nat -> get_r qc_ops en_e zs i i = Some (qinner c (bstar i) (bstar i))) /\
    (* ... and get_r(i,j) = <b_i, bstar_j> = get_mu(i,j) * get_r(j,j) *)
    (forall i j, (j < i)%nat -> (i < D)%nat ->
       get_r qc_ops en_e zs i j = Some (qinner c (brow (gb (fst zs)) i) (bstar j)) /\
       get_r qc_ops en_e zs i j = Some (mu_of en_e zs i j * qinner c (bstar j) (bstar j))).
Proof.
  intros en_e junk b c u ui ig fl zs0 h zs D bstar He HV E0 HL HR HD HS.
  destruct (gso_cache_is_reference qc_ops en_e junk b c u ui ig fl zs0 h (qc_laws en_e) He HV E0 HL) as [zs' [E' HX]].
  rewrite HR in E'. injection E' as <-. cbv zeta in HX.
  set (B := gb (fst zs)) in *. set (G := gram_ref qc_ops en_e ig c B) in *.
  set (e := fun i => encexp qc_ops en_e (nth i B [])).
  pose (r := fun i j => refR qc_ops G i j * pow2 (e i + e j)).
  pose (mu := fun i j => refM qc_ops G i j * pow2 (e i - e j)).
  assert (HE0 : en_e = false -> forall i, e i = 0%Z) by (intros X i; unfold e, encexp; rewrite X; auto).
  assert (HVC : forall i j, (j <= i)%nat -> (i < D)%nat -> valid_coeff qc_ops zs i j).
  { intros i j Hj Hi. destruct (HD i Hi) as [X1 [X2 X3]]. unfold valid_coeff. repeat split; auto. lia. }
  assert (Hget_r : forall i j, (j <= i)%nat -> (i < D)%nat -> get_r qc_ops en_e zs i j = Some (r i j)).
  { intros i j Hj Hi. destruct (HX i j (HVC i j Hj Hi)) as [X _]. unfold get_r. rewrite X. cbn [obind fst snd].
    unfold r. destruct en_e; [reflexivity|]. rewrite !HE0 by auto. simpl. f_equal. rewrite pow2_0. qring. }
  assert (Hget_mu : forall i j, (j < i)%nat -> (i < D)%nat -> mu_of en_e zs i j = mu i j).
  { intros i j Hj Hi. destruct (HX i j (HVC i j ltac:(lia) Hi)) as [_ X]. unfold mu_of, get_mu. rewrite X by auto. cbn [obind fst snd].
    unfold mu. destruct en_e; [reflexivity|]. rewrite !HE0 by auto. simpl. rewrite pow2_0. qring. }
  assert (HrowI : Inv (fst zs) /\ gc (fst zs) = c /\ en_g (fst zs) = ig).
  { destruct (fgso_new_ok qc_ops en_e junk b c u ui ig fl (qc_laws en_e) HV) as [s [E HF]].
    rewrite E in E0. injection E0 as <-.
    destruct (frun_ok qc_ops en_e (qc_laws en_e) h _ s HF HL) as [z' [s' [Er [HF' Fl]]]].
    rewrite HR in Er. injection Er as ->. cbn [fst]. destruct Fl as [F1 [F2 _]]. split; [apply (F_inv _ _ _ _ HF')|]. auto. }
  destruct HrowI as [HI [Hc Hg]].
  assert (Hlen : forall i, (i < D)%nat -> length (nth i B []) = c).
  { intros i Hi. destruct (HD i Hi) as [X1 _]. destruct (I_known _ HI) as [_ [K _]]. destruct (I_b _ HI) as [_ Y].
    rewrite <- Hc. apply Y. lia. }
  assert (Hc1 : (1 <= c)%nat) by (destruct HV; auto).
  assert (HG : forall i j, (i < D)%nat -> (j < D)%nat -> G i j * pow2 (e i + e j) = qdot c (brow B i) (brow B j)).
  { intros i j Hi Hj. unfold G. rewrite gram_ref_q by auto. fold (e i) (e j).
    unfold zq. change (fun k : nat => Qcz (nth k (nth i B []) 0%Z)) with (brow B i).
    change (fun k : nat => Qcz (nth k (nth j B []) 0%Z)) with (brow B j).
    rewrite pow2_add, !pow2_opp. qfield. split; apply pow2_nz. }
  assert (Hr : forall i j, (j <= i)%nat -> (i < D)%nat -> r i j = qdot c (brow B i) (brow B j) - qsum j (fun k => mu j k * r i k)).
  { intros i j Hj Hi. rewrite <- HG by lia. unfold r at 1. rewrite refR_q.
    transitivity (G i j * pow2 (e i + e j) - qsum j (fun k => refM qc_ops G j k * refR qc_ops G i k) * pow2 (e i + e j)); [qring|].
    f_equal. rewrite <- qsum_scal_r. apply qsum_ext. intros k Hk. unfold mu, r.
    rewrite !pow2_add, pow2_sub. qfield. apply pow2_nz. }
  assert (Hmu : forall i j, (j < i)%nat -> (i < D)%nat -> mu i j = r i j / r j j).
  { intros i j Hj Hi. unfold mu, r, refM. cbn [f_div qc_ops].
    destruct (Qc_eq_dec (refR qc_ops G j j) 0) as [E|E].
    - rewrite E. unfold Qcdiv.
      replace (0 * pow2 (e j + e j)) with 0 by qring. change (/ 0) with 0. qring.
    - rewrite pow2_add, pow2_sub, pow2_add.
      assert (HA : forall x y p q : Qc, y <> 0 -> p <> 0 -> q <> 0 -> x / y * (p / q) = x * (p * q) / (y * (q * q)))
        by (intros; field; auto).
      apply HA; auto; apply pow2_nz. }
  assert (HS' : forall i k, (i < D)%nat -> (k < c)%nat -> bstar i k = brow B i k - qsum i (fun j => mu i j * bstar j k)).
  { intros i k Hi Hk. rewrite HS by auto. f_equal. apply qsum_ext. intros j Hj. rewrite Hget_mu by auto. auto. }
  assert (HB1 := gs_both c D (brow B) bstar mu r HS' Hr Hmu).
  assert (HB2 := gs_mu_r c D (brow B) bstar mu r HS' Hr Hmu).
  assert (HB3 := fun j => gs_r_dot c D (brow B) bstar mu r HS' Hr j).
  split; [|split].
  - intros i j Hi Hj Hne. destruct (le_lt_dec i j).
    + unfold qinner. fold (qdot c (bstar i) (bstar j)). rewrite qdot_comm. apply (HB1 j); auto. lia.
    + apply (HB1 i); auto.
  - intros i Hi. rewrite Hget_r by lia. f_equal. apply (HB1 i); auto.
  - intros i j Hj Hi. rewrite Hget_r by lia. split; f_equal.
    + apply HB3; auto; lia.
    + rewrite Hget_mu by auto. rewrite HB2 by auto. f_equal. apply (HB1 j). lia.
Qed.

(** Instance: exact coefficients of [ex_b], with row exponents, after a history. *)
Definition ex_qhist : list (fop qc_ops) :=
  [FUpdate 0 0; FUpdate 1 1; FTrans 1 2 [ORowSub 1 0]; FUpdate 1 1; FUpdate 2 2; FMove 2 0; FUpdate 0 0;
   FUpdate 1 1; FUpdate 2 2].
Definition qceqb (x y : Qc) : bool := if Qc_eq_dec x y then true else false.
Definition ex_exact_check : bool :=
  match fgso_new qc_ops true 0 ex_b 3 [] [] false false with
  | Some zs0 => flegal_runb qc_ops true qceqb zs0 ex_qhist &&
    match frun qc_ops true zs0 ex_qhist with
    | Some zs => valid_coeffb qc_ops zs 0 0 && valid_coeffb qc_ops zs 1 1 && valid_coeffb qc_ops zs 2 2 &&
       match get_mu qc_ops true zs 2 0 with Some x => qceqb x (Q2Qc (20 # 83)) | None => false end
    | None => false end
  | None => false end.
Example ex_exact_hyps :
  exists zs0 zs,
    fgso_new qc_ops true 0 ex_b 3 [] [] false false = Some zs0 /\ flegal_run qc_ops true zs0 ex_qhist /\
    frun qc_ops true zs0 ex_qhist = Some zs /\
    (forall i, (i < 3)%nat -> valid_coeff qc_ops zs i i) /\
    get_mu qc_ops true zs 2 0 = Some (Q2Qc (20 # 83)).
Proof.
  assert (HQ : forall x y, qceqb x y = true -> x = y) by (unfold qceqb; intros x y; destruct (Qc_eq_dec x y); congruence).
  assert (H : ex_exact_check = true) by (vm_compute; reflexivity). unfold ex_exact_check in H.
  destruct (fgso_new qc_ops true 0 _ _ _ _ _ _) as [zs0|]; [|discriminate].
  apply andb_true_iff in H. destruct H as [H1 H].
  destruct (frun qc_ops true zs0 ex_qhist) as [zs|] eqn:E1; [|discriminate].
  rewrite !andb_true_iff in H. destruct H as [[[H2 H3] H4] H5].
  exists zs0, zs. split; auto. split; [apply (flegal_runb_ok qc_ops true qceqb); auto|]. split; auto. split.
  - intros i Hi. do 3 (destruct i as [|i]; [apply valid_coeffb_ok; assumption|]). lia.
  - destruct (get_mu qc_ops true zs 2 0); [|discriminate]. f_equal. apply HQ. auto.
Qed.

Print Assumptions gso_cache_is_reference.
Print Assumptions gso_cache_transparent.
Print Assumptions gso_update_makes_valid.
Print Assumptions gso_exact_is_gram_schmidt.
