(** Facts about the Householder model that hold for every floating-point type:
    definedness (no access outside the allocated matrices) and the effect on
    the integer basis. *)
From Coq Require Import List ZArith Lia Arith Bool.
From Verif Require Import Util LatticeSpec NumVectModel NumVectProofs MatrixModel MatrixProofs
  GsoModel GsoProofs GsoHistory GsoFModel HouseModel.
Import ListNotations.
Local Open Scope nat_scope.

(** ** rows *)
Lemma rw2_loop_spec {A} (f : A -> A -> A) d n : forall beg row src,
  n <= length row -> n <= length src ->
  exists r, rw2_loop beg n f row src = Some r /\ length r = length row /\
    forall k, nth k r d = if (beg <=? k) && (k <? n) then f (nth k row d) (nth k src d) else nth k row d.
Proof.
  induction n; intros beg row src Hr Hs; cbn [rw2_loop].
  - exists row. split; auto. split; auto. intros k. rewrite andb_false_r. auto.
  - destruct row as [|x row]; cbn [length] in *; [lia|]. destruct src as [|y src]; cbn [length] in *; [lia|].
    destruct (IHn (pred beg) row src) as [t [E [L N]]]; try lia. rewrite E. cbn [obind].
    eexists; split; [reflexivity|]. split; [cbn; lia|].
    intros [|k].
    + destruct beg; cbn; auto.
    + cbn [nth]. rewrite N. destruct beg; cbn [pred Nat.leb]; auto.
Qed.

Lemma rw2_spec {A} (f : A -> A -> A) d beg n row src :
  n <= length row -> n <= length src ->
  exists r, rw2 beg n f row src = Some r /\ length r = length row /\
    forall k, nth k r d = if (beg <=? k) && (k <? n) then f (nth k row d) (nth k src d) else nth k row d.
Proof.
  intros Hr Hs. unfold rw2. destruct (Nat.leb_spec n beg).
  - exists row. split; auto. split; auto. intros k.
    destruct (Nat.leb_spec beg k); cbn [andb]; auto. destruct (Nat.ltb_spec k n); auto. lia.
  - apply rw2_loop_spec; auto.
Qed.

Lemma nth_error_lt {A} (l : list A) i d : i < length l -> nth_error l i = Some (nth i l d).
Proof. intros. apply nth_error_nth'. auto. Qed.

Lemma nth_repeat_lt {A} (x d : A) n i : i < n -> nth i (repeat x n) d = x.
Proof. revert i. induction n; intros i Hi; [lia|]. destruct i; cbn; auto. apply IHn. lia. Qed.

Section P.
Variable ho : hops.
Variable en_e : bool.
Notation FT := (HF ho).
Notation z0 := (h_0 ho).

Lemma hdot_loop_some v w cnt : forall i acc, i + cnt <= length v -> i + cnt <= length w ->
  exists x, hdot_loop ho acc v w i cnt = Some x.
Proof.
  induction cnt; intros i acc Hv Hw; cbn [hdot_loop]; eauto.
  rewrite (nth_error_lt v i z0), (nth_error_lt w i z0) by lia. cbn [obind]. apply IHcnt; lia.
Qed.
Lemma hdot_some v w beg n : beg < n -> n <= length v -> n <= length w ->
  exists x, hdot ho v w beg n = Some x.
Proof.
  intros. unfold hdot. rewrite (nth_error_lt v beg z0), (nth_error_lt w beg z0) by lia. cbn [obind].
  apply hdot_loop_some; lia.
Qed.

(** ** shape of the state *)
Record hshape (d n : nat) (s : hst ho) : Prop := {
  S_d : hd_ ho s = d; S_n : hn_ ho s = n;
  S_R : dims d n (hR ho s); S_V : dims d n (hV ho s);
  S_sig : length (hsig ho s) = d; S_bf : dims d n (hbf ho s);
  S_re : length (hre ho s) = d;
  S_hist : length (hhist ho s) = d; S_hist2 : forall i, i < d -> dims n n (nth i (hhist ho s) []);
  S_nb : length (hnb ho s) = d; S_nbe : length (hnbe ho s) = d
}.

Lemma dims_nth {A} d n (M : list (list A)) i : dims d n M -> i < d ->
  nth_error M i = Some (nth i M []) /\ length (nth i M []) = n.
Proof. intros [L H] Hi. split; [apply nth_error_lt; lia|auto]. Qed.

Lemma last_row_some i n r v : i < n -> length r = n -> length v = n ->
  exists r' v' sg, last_row ho i n r v = Some (r', v', sg) /\ length r' = n /\ length v' = n.
Proof.
  intros Hi Lr Lv. unfold last_row. rewrite (nth_error_lt r i z0) by lia. cbn [obind].
  assert (E3 : exists t3, (if S i =? n then Some z0 else hdot ho r r (S i) n) = Some t3).
  { destruct (Nat.eqb_spec (S i) n); eauto. apply hdot_some; lia. }
  destruct E3 as [t3 E3]. rewrite E3. cbn [obind].
  rewrite (nth_error_lt v i z0) by lia. cbn [obind].
  destruct (h_ne0 ho _); [destruct (h_ne0 ho _)|].
  - edestruct (@rw2_spec FT) with (d := z0) (beg := S i) (n := n) as [v2 [E [L _]]];
      [| |rewrite E; cbn [obind]; do 3 eexists; split; [reflexivity|]]; rewrite ?upd_length in *; auto; lia.
  - edestruct (@rw2_spec FT) with (d := z0) (beg := S i) (n := n) as [v2 [E [L _]]];
      [| |rewrite E; cbn [obind]; do 3 eexists; split; [reflexivity|]]; rewrite ?upd_length in *; auto; try lia.
    split; [|lia]. destruct (h_lt0 ho _); rewrite ?upd_length; auto.
  - edestruct (@rw2_spec FT) with (d := z0) (beg := S i) (n := n) as [v2 [E [L _]]];
      [| |rewrite E; cbn [obind]; do 3 eexists; split; [reflexivity|]]; rewrite ?upd_length in *; auto; lia.
Qed.

Lemma update_R_last_some d n s i : hshape d n s -> i < d -> i < n ->
  exists r' v' sg, last_row ho i n (nth i (hR ho s) []) (nth i (hV ho s) []) = Some (r', v', sg) /\
    length r' = n /\ length v' = n /\
    update_R_last ho s i =
      Some (h_setz ho (h_setsig ho (h_setV ho (h_setR ho s (upd (hR ho s) i r')) (upd (hV ho s) i v'))
              (upd (hsig ho s) i sg)) (set_nkr (hz ho s) (S (nkr (hz ho s))))).
Proof.
  intros [] Hi Hn. unfold update_R_last.
  destruct (dims_nth _ _ _ i S_R0 Hi) as [E1 L1]. destruct (dims_nth _ _ _ i S_V0 Hi) as [E2 L2].
  rewrite E1, E2. cbn [obind]. rewrite (nth_error_lt (hsig ho s) i z0) by lia. cbn [obind].
  rewrite S_n0. destruct (last_row_some i n _ _ Hn L1 L2) as [r' [v' [sg [E [Lr Lv]]]]].
  exists r', v', sg. rewrite E. cbn [obind]. auto.
Qed.

Lemma apply_house_some n j vj sj r : j < n -> length vj = n -> length r = n ->
  exists r', apply_house ho n j vj sj r = Some r' /\ length r' = n.
Proof.
  intros Hj Lv Lr. unfold apply_house.
  destruct (hdot_some vj r j n) as [t Et]; try lia. rewrite Et. cbn [obind].
  destruct (rw2_spec (fun x y => h_addmul ho x y (h_neg ho t)) z0 j n r vj) as [r1 [E1 [L1 _]]]; try lia.
  rewrite E1. cbn [obind]. rewrite (nth_error_lt r1 j z0) by lia. cbn [obind].
  eexists; split; [reflexivity|]. rewrite upd_length. lia.
Qed.

Lemma update_row_some d n s i r hist : hshape d n s -> i < d -> i <= n ->
  length r = n -> dims n n hist ->
  exists r' hist', update_row ho s i r hist = Some (r', hist') /\ length r' = n /\ dims n n hist'.
Proof.
  intros [] Hi Hn Lr Dh. unfold update_row.
  destruct (ofor_inv (fun (_ : nat) (a : list FT * list (list FT)) => length (fst a) = n /\ dims n n (snd a))
    (fun j a => let '(r, hist) := a in
      vj <- nth_error (hV ho s) j;; sj <- nth_error (hsig ho s) j;;
      r' <- apply_house ho (hn_ ho s) j vj sj r;;
      hj <- nth_error hist j;;
      hj' <- rw2 j (hn_ ho s) (fun _ x => x) hj r';;
      Some (r', upd hist j hj')) i 0 (r, hist)) as [[r' h'] [E [L D]]].
  - split; auto.
  - intros j [r1 h1] Hj [L1 D1]. cbn [fst snd] in *.
    destruct (dims_nth _ _ _ j S_V0) as [E2 L2]; try lia. rewrite E2. cbn [obind].
    rewrite (nth_error_lt (hsig ho s) j z0) by lia. cbn [obind].
    rewrite S_n0. destruct (apply_house_some n j (nth j (hV ho s) []) (nth j (hsig ho s) z0) r1) as [r2 [E3 L3]]; auto; try lia.
    rewrite E3. cbn [obind].
    destruct (dims_nth _ _ _ j D1) as [E4 L4]; try lia. rewrite E4. cbn [obind].
    destruct (rw2_spec (fun _ x => x) z0 j n (nth j h1 []) r2) as [h2 [E5 [L5 _]]]; try lia.
    rewrite E5. cbn [obind]. eexists; split; [reflexivity|]. cbn [fst snd]. split; auto.
    apply dims_upd; auto. lia.
  - exists r', h'. auto.
Qed.

Lemma conv_row_some n nkc row old e : nkc <= n -> length row = n -> length old = n ->
  exists bf' e', conv_row ho en_e n nkc row old e = Some (bf', e') /\ length bf' = n.
Proof.
  intros H1 H2 H3. unfold conv_row.
  replace ((length row <? nkc) || (length old <? n) || (n <? nkc)) with false.
  2: { symmetry. rewrite !orb_false_iff, !Nat.ltb_ge. lia. }
  destruct en_e; do 2 eexists; (split; [reflexivity|]);
    rewrite !app_length, !map_length, repeat_length, skipn_length, ?map_length, firstn_length; lia.
Qed.

Lemma row_from_bf_some n nkc r bf : nkc <= n -> length r = n -> length bf = n ->
  exists r', row_from_bf ho n nkc r bf = Some r' /\ length r' = n /\
    forall k, k < n -> nth k r' z0 = if k <? nkc then nth k bf z0 else z0.
Proof.
  intros H1 H2 H3. unfold row_from_bf.
  destruct (rw2_spec (fun _ x : FT => x) z0 0 nkc r bf) as [r1 [E1 [L1 N1]]]; try lia. rewrite E1. cbn [obind].
  destruct (rw2_spec (fun _ _ : FT => z0) z0 nkc n r1 r1) as [r2 [E2 [L2 N2]]]; try lia. rewrite E2.
  eexists; split; [reflexivity|]. split; [lia|]. intros k Hk. rewrite N2, N1.
  destruct (Nat.leb_spec nkc k); destruct (Nat.ltb_spec k n); destruct (Nat.ltb_spec k nkc); cbn [andb Nat.leb]; auto; lia.
Qed.

Lemma shape_upd_R d n s i r : hshape d n s -> length r = n -> hshape d n (h_setR ho s (upd (hR ho s) i r)).
Proof. intros [] L. constructor; auto. cbn. apply dims_upd; auto. Qed.

Lemma hist_upd d n s i h : hshape d n s -> dims n n h ->
  hshape d n (h_sethist ho s (upd (hhist ho s) i h)).
Proof.
  intros [] L. constructor; auto; cbn; rewrite ?upd_length; auto.
  intros k Hk. rewrite nth_upd. destruct (_ && _); auto.
Qed.

Lemma update_R_last_ok d n s i : hshape d n s -> i < d -> i < n ->
  exists s', update_R_last ho s i = Some s' /\ hshape d n s' /\
    hz ho s' = set_nkr (hz ho s) (S (nkr (hz ho s))).
Proof.
  intros H Hi Hn. destruct (update_R_last_some d n s i H Hi Hn) as [r' [v' [sg [_ [Lr [Lv E]]]]]].
  rewrite E. eexists; split; [reflexivity|]. split; auto.
  destruct H. constructor; auto; cbn; rewrite ?upd_length; auto; apply dims_upd; auto.
Qed.

Lemma update_R_ok d n s i : hshape d n s -> i < d -> i <= n ->
  exists s', update_R ho s i false = Some s' /\ hshape d n s' /\ hz ho s' = hz ho s /\
    hre ho s' = hre ho s /\ hupd ho s' = hupd ho s /\ hnb ho s' = hnb ho s /\ hnbe ho s' = hnbe ho s.
Proof.
  intros H Hi Hn. unfold update_R. destruct (hupd ho s) eqn:EU.
  { exists s. auto 10. }
  pose proof H as [].
  destruct (dims_nth _ _ _ i S_R0 Hi) as [E1 L1]. rewrite E1. cbn [obind].
  rewrite (nth_error_lt (hhist ho s) i []) by lia. cbn [obind].
  destruct (update_row_some d n s i (nth i (hR ho s) []) (nth i (hhist ho s) [])) as [r' [h' [E2 [L2 D2]]]]; auto.
  rewrite E2. cbn [obind fst snd]. eexists; split; [reflexivity|].
  split; [|cbn; auto]. apply (hist_upd d n (h_setR ho s (upd (hR ho s) i r'))); auto. apply shape_upd_R; auto.
Qed.

(** refresh_R_bf: the only change of the integer part is n_known_cols *)
Definition set_nkc (z : gz) (k : nat) : gz := set_known z (nkr z) (nsr z) k (locked z) (irs z).

Lemma refresh_R_bf_ok d n s i : hshape d n s -> i < d ->
  length (irs (hz ho s)) = d -> nth i (irs (hz ho s)) 0 <= n -> 1 <= nth i (irs (hz ho s)) 0 ->
  nkc (hz ho s) <= n -> rect n (gb (hz ho s)) ->
  exists s', refresh_R_bf ho en_e s i = Some s' /\ hshape d n s' /\
    hz ho s' = set_nkc (hz ho s) (Nat.max (nkc (hz ho s)) (nth i (irs (hz ho s)) 0)) /\ hupd ho s' = hupd ho s.
Proof.
  intros H Hi LI HI HI1 HK HB. unfold refresh_R_bf. pose proof H as [].
  unfold hd_, gd, hn_ in *.
  rewrite (nth_error_lt (irs (hz ho s)) i 0) by lia. cbn [obind nkc set_known].
  rewrite (nth_error_lt (gb (hz ho s)) i []) by lia. cbn [obind].
  destruct (dims_nth _ _ _ i S_bf0 Hi) as [E1 L1]. rewrite E1. cbn [obind].
  rewrite (nth_error_lt (hre ho s) i 0%Z) by lia. cbn [obind]. rewrite S_n0.
  set (m := Nat.max _ _).
  destruct (conv_row_some n m (nth i (gb (hz ho s)) []) (nth i (hbf ho s) []) (nth i (hre ho s) 0%Z)) as [bf' [e' [E2 L2]]]; auto; try lia.
  { apply HB. lia. }
  rewrite E2. cbn [obind fst snd].
  destruct (dims_nth _ _ _ i S_R0 Hi) as [E3 L3]. rewrite E3. cbn [obind].
  destruct (row_from_bf_some n m (nth i (hR ho s) []) bf') as [r' [E4 [L4 _]]]; auto; try lia.
  rewrite E4. cbn [obind]. unfold norm_square_b_row. cbn [h_setR h_setbf h_setz hbf hz nkc set_known hre obind].
  rewrite (nth_error_lt (upd (hbf ho s) i bf') i []) by (rewrite upd_length; destruct S_bf0; lia).
  rewrite nth_upd_eq by (destruct S_bf0; lia). cbn [obind].
  destruct (hdot_some bf' bf' 0 m) as [x Ex]; try lia. rewrite Ex. cbn [obind].
  rewrite (nth_error_lt (upd (hre ho s) i e') i 0%Z) by (rewrite upd_length; lia). cbn [obind].
  rewrite (nth_error_lt (hnb ho s) i z0), (nth_error_lt (hnbe ho s) i 0%Z) by lia. cbn [obind fst snd].
  eexists; split; [reflexivity|]. split; [|split; auto].
  constructor; cbn; rewrite ?upd_length; auto; apply dims_upd; auto.
Qed.

Lemma refresh_R_ok d n s i : hshape d n s -> i < d -> nkc (hz ho s) <= n ->
  exists s', refresh_R ho s i = Some s' /\ hshape d n s' /\ hz ho s' = hz ho s /\ hupd ho s' = hupd ho s.
Proof.
  intros H Hi HK. unfold refresh_R. pose proof H as [].
  destruct (dims_nth _ _ _ i S_R0 Hi) as [E1 L1]. destruct (dims_nth _ _ _ i S_bf0 Hi) as [E2 L2].
  rewrite E1, E2. cbn [obind]. rewrite S_n0.
  destruct (row_from_bf_some n (nkc (hz ho s)) (nth i (hR ho s) []) (nth i (hbf ho s) [])) as [r' [E4 [L4 _]]]; auto.
  rewrite E4. cbn [obind]. eexists; split; [reflexivity|]. split; [|auto]. apply shape_upd_R; auto.
Qed.

Lemma recover_R_ok d n s i : hshape d n s -> 1 <= i -> i < d -> i <= n ->
  exists s', recover_R ho s i = Some s' /\ hshape d n s' /\ hz ho s' = hz ho s.
Proof.
  intros H H1 Hi Hn. destruct i as [|i]; [lia|]. unfold recover_R. pose proof H as [].
  rewrite (nth_error_lt (hhist ho s) (S i) []) by lia. cbn [obind].
  destruct (dims_nth _ _ _ (S i) S_R0 Hi) as [E1 L1]. rewrite E1. cbn [obind].
  pose proof (S_hist3 (S i) Hi) as Dh.
  destruct (ofor_inv (fun (_ : nat) (r : list FT) => length r = n)
     (fun k r => x <- mget (nth (S i) (hhist ho s) []) k k;; _ <- nth_error r k;; Some (upd r k x)) i 0 (nth (S i) (hR ho s) []))
     as [r1 [E2 L2]]; auto.
  { intros k r Hk Lr. rewrite (mget_some z0 n n) by (auto; lia). cbn [obind].
    rewrite (nth_error_lt r k z0) by lia. cbn [obind]. eexists; split; [reflexivity|]. now rewrite upd_length. }
  rewrite E2. cbn [obind].
  destruct (dims_nth _ _ _ i Dh) as [E3 L3]; try lia. rewrite E3. cbn [obind]. rewrite S_n0.
  destruct (rw2_spec (fun _ x => x) z0 i n r1 (nth i (nth (S i) (hhist ho s) []) [])) as [r2 [E4 [L4 _]]]; try lia.
  rewrite E4. cbn [obind]. eexists; split; [reflexivity|]. split; [|auto].
  pose proof (shape_upd_R d n s (S i) r2 H). destruct H0; try lia. constructor; auto.
Qed.

(** ** the integer part *)

(** the state seen as a MatGSO-like one that has discovered the first D rows *)
Definition disc (D : nat) (z : gz) : gz := set_known z D D (nkc z) false (irs z).

Lemma row_addmul_we_disc D z i j lx e zx e2 : en_g z = false ->
  row_addmul_we (disc D z) i j lx e zx e2 =
  match row_addmul_we z i j lx e zx e2 with Some z' => Some (disc D z') | None => None end.
Proof.
  intros Eg.
  assert (T : forall w a b x y, transform_addmul (disc D w) a b x y =
     match transform_addmul w a b x y with Some w' => Some (disc D w') | None => None end).
  { intros. unfold transform_addmul. cbn [disc set_known en_t en_i gu gui].
    destruct (en_t w); auto. destruct (mrow_addmul_full (gu w) a b x); cbn [obind]; auto.
    destruct (en_i w); auto. destruct (mrow_addmul_full (gui w) b a y); auto. }
  unfold row_addmul_we, row_add, row_sub, row_addmul_si, row_addmul_si_2exp, row_addmul_2exp.
  cbn [disc set_known en_g gb nkc force_long nkr gg]. rewrite Eg.
  change (set_b (disc D z)) with (fun b => disc D (set_b z b)). cbn beta.
  repeat match goal with |- context[if ?b then _ else _] => destruct b; auto end;
  match goal with |- context[obind ?e _] => destruct e; cbn [obind]; auto end;
  rewrite T; destruct (transform_addmul _ _ _ _ _); auto.
Qed.

(** one change of the integer state: [zstep] is the part of [step_ok] that does
    not mention the bookkeeping *)
Definition zstep (z z' : gz) : Prop := exists e,
  flags_eq z z' /\ eff_ok (gd z) e /\ eff_mat e (gb z) (gb z') /\ (forall i, e <> ENeg i) /\
  (en_t z = true -> eff_mat e (gu z) (gu z')) /\
  (en_t z = true -> en_i z = true -> eff_dual e (gui z) (gui z')) /\ shape z z'.

Inductive zsteps (z : gz) : gz -> Prop :=
| zs_eq z' : gb z' = gb z -> gu z' = gu z -> gui z' = gui z -> flags_eq z z' -> zsteps z z'
| zs_step z1 z2 : zsteps z z1 -> zstep z1 z2 -> zsteps z z2
| zs_same z1 z2 : zsteps z z1 -> gb z2 = gb z1 -> gu z2 = gu z1 -> gui z2 = gui z1 -> flags_eq z1 z2 -> zsteps z z2.

Record Zinv (D : nat) (z : gz) : Prop := { Z_inv : Inv (disc D z); Z_g : en_g z = false }.

Lemma step_zstep D z z' e : step_ok (disc D z) (disc D z') e -> zstep z z'.
Proof. intros [_ H]. exists e. exact H. Qed.

Lemma row_op_Z D z i j lx e zx e2 : Zinv D z -> i < D -> j < D -> i <> j ->
  exists z', row_addmul_we z i j lx e zx e2 = Some z' /\ Zinv D z' /\ zstep z z' /\
    gd z' = gd z /\ irs z' = irs z /\ nkc z' = nkc z.
Proof.
  intros [HI HG] Hi Hj Hij.
  destruct (row_addmul_we_ok (disc D z) i j lx e zx e2) as [w [ef [E S]]]; auto.
  { split; [exact Hi|]. split; [exact Hj|]. auto. }
  rewrite row_addmul_we_disc in E by auto.
  assert (FR : forall z', row_addmul_we z i j lx e zx e2 = Some z' -> irs z' = irs z /\ nkc z' = nkc z).
  { clear. intros z'. unfold row_addmul_we, row_add, row_sub, row_addmul_si, row_addmul_si_2exp, row_addmul_2exp.
    assert (T : forall w a b x y w', transform_addmul w a b x y = Some w' -> irs w' = irs w /\ nkc w' = nkc w).
    { intros w a b x y w'. unfold transform_addmul. destruct (en_t w); [|intros [= <-]; auto].
      destruct (mrow_addmul_full _ _ _ _); cbn [obind]; [|discriminate].
      destruct (en_i w); [|intros [= <-]; auto].
      destruct (mrow_addmul_full _ _ _ _); cbn [obind]; [|discriminate]. intros [= <-]; auto. }
    intros H.
    assert (C : z' = z \/ exists a b x y M w, transform_addmul (set_b z M) a b x y = Some w /\ (z' = w \/ exists g, z' = set_g w g)).
    { revert H. repeat match goal with |- context[if ?b then _ else _] => destruct b end;
      intros H; try (injection H as <-; auto; fail);
      repeat match type of H with obind ?e _ = _ => let E := fresh "E" in destruct e eqn:E; cbn [obind] in H; [|discriminate] end;
      injection H as <-; right; do 6 eexists; (split; [eassumption|first [left; reflexivity|right; eexists; reflexivity]]). }
    destruct C as [->|[a [b [x [y [M [w [Ew C]]]]]]]]; auto.
    destruct (T _ _ _ _ _ _ Ew) as [T1 T2]. destruct C as [->|[g ->]]; auto. }
  destruct (row_addmul_we z i j lx e zx e2) as [z'|] eqn:Ez; [|discriminate].
  destruct (FR z' eq_refl) as [F1 F2].
  injection E as <-. exists z'. split; auto.
  pose proof (step_zstep D z z' ef S) as ZS. destruct S as [I' [F [_ [EM _]]]].
  split; [|split; auto].
  - split; auto. destruct F as [_ [F _]]. cbn in F. congruence.
  - destruct EM as [EM _]. split; auto.
Qed.

Lemma refresh_Z D z i : Zinv D z -> i <= D -> i < gd z ->
  Zinv (Nat.max D (S i)) (set_nkc z (Nat.max (nkc z) (nth i (irs z) 0))).
Proof.
  intros [HI HG] Hi Hd. split; auto. destruct HI as [I_b0 I_c0 I_known0 I_unl0 I_irs0 I_src0 I_tail0 I_kc0 I_g0 I_u0 I_ui0].
  unfold disc, set_nkc, set_known, gd, ent in *. cbn [gb gc gu gui gg en_g en_t en_i force_long nkr nsr nkc locked irs] in *.
  destruct I_irs0 as [L1 L2]. pose proof (L2 i Hd).
  constructor; unfold gd, ent; cbn [gb gc gu gui gg en_g en_t en_i force_long nkr nsr nkc locked irs]; auto; try lia.
  - intros a k Ha Hk. destruct (Nat.eq_dec a i) as [->|N].
    + apply I_tail0; auto.
    + apply I_src0; lia.
  - intros a k Ha Hk. apply I_tail0; auto. lia.
  - rewrite HG. discriminate.
Qed.

Lemma nkr_Z D z k : Zinv D z -> Zinv D (set_nkr z k).
Proof. intros [H G]. split; auto. Qed.

Lemma swap_Z D z i j : Zinv D z -> i < D -> j < D ->
  exists z', swap_z z i j = Some z' /\ Zinv D z' /\ zstep z z' /\ gd z' = gd z /\ nkc z' = nkc z /\
   (forall a, a < gd z -> nth a (gb z') [] = nth (tr i j a) (gb z) []) /\
   (forall a, a < gd z -> nth a (irs z') 0 = nth (tr i j a) (irs z) 0) /\
   nkr z' = Nat.min (nkr z) i.
Proof.
  intros [HI HG] Hi Hj. pose proof HI as [I_b0 I_c0 I_known0 I_unl0 I_irs0 I_src0 I_tail0 I_kc0 I_g0 I_u0 I_ui0].
  unfold disc, gd in *. cbn [set_known gb gc gu gui gg en_g en_t en_i force_long nkr nsr nkc locked irs] in *.
  assert (Hd : i < length (gb z) /\ j < length (gb z)) by lia. destruct Hd as [Hid Hjd].
  unfold swap_z. cbn [set_nkr set_known gb irs en_t en_i gu gui nkr nkc nsr locked].
  destruct (oswap_dims _ _ _ i j I_b0) as [b' [Eb [Db Nb]]]; auto. rewrite Eb. cbn [obind].
  destruct (oswap_some (gb z) i j) as [bx [Ebx RB]]; auto. assert (bx = b') by congruence; subst bx.
  destruct I_irs0 as [L1 L2].
  destruct (oswap_some (irs z) i j) as [ir' [Ei R1]]; try lia. rewrite Ei. cbn [obind].
  assert (Nir : forall a, a < length (gb z) -> nth a ir' 0 = nth (tr i j a) (irs z) 0).
  { intros a Ha. apply reidx_nth; auto; try lia. rewrite L1. apply tr_lt; auto. }
  assert (Lir : length ir' = length (gb z)) by (destruct R1; lia).
  assert (NB : forall a, a < length (gb z) -> nth a b' [] = nth (tr i j a) (gb z) []).
  { intros a Ha. apply reidx_nth; auto; try lia. apply tr_lt; auto. }
  set (z1 := set_known (set_b z b') (Nat.min (nkr z) i) (nsr z) (nkc z) (locked z) ir').
  assert (main : forall z', gb z' = b' -> irs z' = ir' -> nkc z' = nkc z -> flags_eq z z' -> nkr z' = Nat.min (nkr z) i ->
     (en_t z = true -> eff_mat (EPerm (tr i j) (tr i j)) (gu z) (gu z') /\ exists cu, dims (length (gb z)) cu (gu z')) ->
     (en_t z = true -> en_i z = true -> eff_dual (EPerm (tr i j) (tr i j)) (gui z) (gui z') /\ exists cu, dims (length (gb z)) cu (gui z')) ->
     shape z z' ->
     Zinv D z' /\ zstep z z' /\ length (gb z') = length (gb z) /\ nkc z' = nkc z /\
     (forall a, a < length (gb z) -> nth a (gb z') [] = nth (tr i j a) (gb z) []) /\
     (forall a, a < length (gb z) -> nth a (irs z') 0 = nth (tr i j a) (irs z) 0) /\
     nkr z' = Nat.min (nkr z) i).
  { intros z' E1 E2 E3 FL E4 HU HUI SH.
    assert (S : step_ok (disc D z) (disc D z') (EPerm (tr i j) (tr i j))).
    { apply step_ok_perm; auto; unfold disc, gd; cbn [set_known gb gc gu gui gg en_g en_t en_i force_long nkr nsr nkc locked irs]; auto; try lia.
      - apply perm_ok_tr; auto.
      - rewrite E1; auto.
      - intros a k Ha. rewrite E1. apply Nb; auto.
      - rewrite E2. auto.
      - intros a Ha. rewrite E2, Nir by auto. apply L2. apply tr_lt; auto.
      - intros a Ha. apply tr_lt; auto.
      - intros a k Ha Hk. rewrite E1, E2 in *. rewrite Nb by auto. rewrite Nir in Hk by auto.
        apply I_tail0; auto. apply tr_lt; auto.
      - rewrite HG. discriminate. }
    split; [|split; [eapply step_zstep; eauto|]].
    - split; [apply S|]. destruct FL as [_ [X _]]. congruence.
    - rewrite E1, E2. destruct Db as [Db _]. auto. }
  destruct (en_t z) eqn:Et.
  - destruct (I_u0 eq_refl) as [cu Du].
    destruct (oswap_dims _ _ _ i j Du) as [u' [Eu [Du' Nu]]]; auto. rewrite Eu. cbn [obind].
    destruct (en_i z) eqn:Eii.
    + destruct (I_ui0 eq_refl eq_refl) as [cui Dui].
      destruct (oswap_dims _ _ _ i j Dui) as [ui' [Eui [Dui' Nui]]]; auto. rewrite Eui. cbn [obind].
      eexists; split; [reflexivity|]. apply main; auto; try reflexivity.
      * unfold flags_eq, z1; cbn; auto.
      * intros _. split; [|cbn; eauto]. split; [destruct Du, Du'; cbn; lia|]. intros a k Ha. apply Nu. destruct Du; lia.
      * intros _ _. split; [|cbn; eauto]. split; [destruct Dui, Dui'; cbn; lia|]. intros a k Ha. apply Nui. destruct Dui; lia.
      * split; [|split; [|split]]; cbn; try (rewrite ?Et, ?Eii; discriminate).
        -- intros _ c Dc. eapply dims_again; [exact Du|exact Du'|exact Dc].
        -- intros _ _ c Dc. eapply dims_again; [exact Dui|exact Dui'|exact Dc].
    + eexists; split; [reflexivity|]. apply main; auto; try reflexivity.
      * unfold flags_eq, z1; cbn; auto.
      * intros _. split; [|cbn; eauto]. split; [destruct Du, Du'; cbn; lia|]. intros a k Ha. apply Nu. destruct Du; lia.
      * intros _; discriminate.
      * split; [|split; [|split]]; cbn; try (rewrite ?Et, ?Eii; try discriminate; auto).
        -- intros _ c Dc. eapply dims_again; [exact Du|exact Du'|exact Dc].
  - eexists; split; [reflexivity|]. apply main; auto; try reflexivity; try discriminate.
    + unfold flags_eq, z1; cbn; auto.
    + split; [|split; [|split]]; cbn; rewrite ?Et; try discriminate; auto.
Qed.

(** consequences of a chain of changes *)
Lemma zsteps_lattice z z' : zsteps z z' -> gd z' = gd z /\ gc z' = gc z /\ same_lattice (gc z) (gb z) (gb z').
Proof.
  induction 1 as [z' E1 _ _ [F _]|z1 z2 _ [L1 [C1 S1]] [e [F [EO [EM _]]]]|z1 z2 _ [L1 [C1 S1]] E1 _ _ [F _]].
  - unfold gd. rewrite E1. split; auto. split; auto. apply same_lattice_refl.
  - destruct F as [Fc _]. split; [destruct EM; unfold gd in *; lia|]. split; [congruence|].
    eapply same_lattice_trans; [exact S1|]. eapply eff_mat_lattice; eauto.
  - unfold gd in *. rewrite E1. split; auto. split; [congruence|auto].
Qed.

Lemma zsteps_flags z z' : zsteps z z' -> flags_eq z z'.
Proof.
  induction 1 as [z' _ _ _ F|z1 z2 _ F1 [e [F _]]|z1 z2 _ F1 _ _ _ F]; auto;
  destruct F1 as [? [? [? [? ?]]]]; destruct F as [? [? [? [? ?]]]]; repeat split; congruence.
Qed.

Lemma zsteps_product z z' n B0 : zsteps z z' -> en_t z = true ->
  length (gu z) = gd z -> is_product n (gb z) (gu z) B0 ->
  length (gu z') = gd z' /\ is_product n (gb z') (gu z') B0.
Proof.
  intros H Et L HP. induction H as [z' E1 E2 _ _|z1 z2 H1 IH [e [F [EO [EM [EN [EU _]]]]]]|z1 z2 H1 IH E1 E2 _ _].
  - unfold gd. rewrite E1, E2. auto.
  - destruct IH as [L1 P1]. destruct (zsteps_flags _ _ H1) as [_ [_ [Ft _]]].
    assert (Et1 : en_t z1 = true) by congruence. specialize (EU Et1).
    split; [destruct EM, EU; unfold gd in *; lia|].
    eapply eff_product; [exact EN|exact EO|exact L1|exact EM|exact EU|exact P1].
  - unfold gd in *. rewrite E1, E2. auto.
Qed.

Lemma zsteps_inverse z z' : zsteps z z' -> en_t z = true -> en_i z = true ->
  length (gu z) = gd z -> length (gui z) = gd z -> inverse_transposed (gd z) (gu z) (gui z) ->
  length (gu z') = gd z /\ length (gui z') = gd z /\ inverse_transposed (gd z) (gu z') (gui z').
Proof.
  intros H Et Ei L L' HP. induction H as [z' E1 E2 E3 _|z1 z2 H1 IH [e [F [EO [EM [EN [EU [EI _]]]]]]]|z1 z2 H1 IH E1 E2 E3 _].
  - rewrite E2, E3. auto.
  - destruct IH as [L1 [L2 P1]]. destruct (zsteps_flags _ _ H1) as [_ [_ [Ft [Fi _]]]].
    assert (Et1 : en_t z1 = true) by congruence. assert (Ei1 : en_i z1 = true) by congruence.
    specialize (EU Et1). specialize (EI Et1 Ei1).
    destruct (zsteps_lattice _ _ H1) as [Hd _]. rewrite Hd in EO.
    split; [destruct EU; lia|]. split; [destruct EI; lia|].
    eapply eff_inverse; [exact EN|exact EO|exact L1|exact L2|exact EU|exact EI|exact P1].
  - rewrite E2, E3. auto.
Qed.

(** ** the operations of HLLL *)
Record HOK (d n D : nat) (zi : gz) (s : hst ho) : Prop := {
  K_shape : hshape d n s; K_Z : Zinv D (hz ho s); K_D : D <= d; K_steps : zsteps zi (hz ho s)
}.

Lemma zinv_facts d n D s : hshape d n s -> Zinv D (hz ho s) ->
  length (irs (hz ho s)) = d /\ (forall i, i < d -> 1 <= nth i (irs (hz ho s)) 0 <= n) /\
  nkc (hz ho s) <= n /\ rect n (gb (hz ho s)).
Proof.
  intros [] [HI _]. destruct HI as [I_b0 I_c0 I_known0 I_unl0 I_irs0 I_src0 I_tail0 I_kc0 I_g0 I_u0 I_ui0]. unfold disc, gd, hd_, hn_, gd in *. cbn in *. destruct I_irs0 as [A B].
  rewrite S_d0, S_n0 in *. split; auto. split; auto. split; [lia|].
  intros a Ha. destruct I_b0 as [_ X]. apply X. lia.
Qed.

Lemma zsteps_nkx z w w' : zsteps z w -> gb w' = gb w -> gu w' = gu w -> gui w' = gui w -> flags_eq w w' -> zsteps z w'.
Proof. intros. eapply zs_same; eauto. Qed.

Lemma flags_eq_refl z : flags_eq z z. Proof. repeat split. Qed.

Lemma refresh_R_bf_K d n D zi s i : HOK d n D zi s -> i <= D -> i < d ->
  exists s', refresh_R_bf ho en_e s i = Some s' /\ HOK d n (Nat.max D (S i)) zi s' /\ hupd ho s' = hupd ho s.
Proof.
  intros [Sh Z D' St] Hi Hd. destruct (zinv_facts d n D s Sh Z) as [A [B [C E]]].
  destruct (refresh_R_bf_ok d n s i Sh Hd A) as [s' [E1 [S1 [Z1 U1]]]]; auto; try apply B; auto.
  exists s'. split; auto. split; auto. constructor; auto; try lia.
  - rewrite Z1. apply refresh_Z; auto. destruct Sh. unfold hd_ in *. lia.
  - rewrite Z1. eapply zsteps_nkx; [exact St|..]; auto; repeat split.
Qed.

Lemma update_R_K d n D zi s i : HOK d n D zi s -> i < d -> i <= n ->
  exists s', update_R ho s i false = Some s' /\ HOK d n D zi s' /\ hupd ho s' = hupd ho s.
Proof.
  intros [Sh Z D' St] Hi Hn. destruct (update_R_ok d n s i Sh Hi Hn) as [s' [E1 [S1 [Z1 [_ [U1 _]]]]]].
  exists s'. split; auto. split; auto. constructor; auto; rewrite Z1; auto.
Qed.

Lemma update_R_last_K d n D zi s i : HOK d n D zi s -> i < d -> i < n ->
  exists s', update_R_last ho s i = Some s' /\ HOK d n D zi s'.
Proof.
  intros [Sh Z D' St] Hi Hn. destruct (update_R_last_ok d n s i Sh Hi Hn) as [s' [E1 [S1 Z1]]].
  exists s'. split; auto. constructor; auto; rewrite Z1.
  - apply nkr_Z; auto.
  - eapply zsteps_nkx; [exact St|..]; auto; repeat split.
Qed.

Lemma refresh_R_K d n D zi s i : HOK d n D zi s -> i < d ->
  exists s', refresh_R ho s i = Some s' /\ HOK d n D zi s'.
Proof.
  intros [Sh Z D' St] Hi. destruct (zinv_facts d n D s Sh Z) as [A [B [C E]]].
  destruct (refresh_R_ok d n s i Sh Hi C) as [s' [E1 [S1 [Z1 _]]]].
  exists s'. split; auto. constructor; auto; rewrite Z1; auto.
Qed.

Lemma recover_R_K d n D zi s i : HOK d n D zi s -> 1 <= i -> i < d -> i <= n ->
  exists s', recover_R ho s i = Some s' /\ HOK d n D zi s'.
Proof.
  intros [Sh Z D' St] H1 Hi Hn. destruct (recover_R_ok d n s i Sh H1 Hi Hn) as [s' [E1 [S1 Z1]]].
  exists s'. split; auto. constructor; auto; rewrite Z1; auto.
Qed.

Lemma oswap_len {A} (l : list A) i j : i < length l -> j < length l ->
  exists l', oswap l i j = Some l' /\ length l' = length l /\
    forall d a, a < length l -> nth a l' d = nth (tr i j a) l d.
Proof.
  intros Hi Hj. destruct (oswap_some l i j) as [l' [E R1]]; auto. exists l'. split; auto.
  split; [destruct R1; lia|]. intros d a Ha. apply reidx_nth; auto. apply tr_lt; auto.
Qed.

Lemma hswap_K d n D zi s i j : HOK d n D zi s -> i < D -> j < D ->
  exists s', hswap ho en_e s i j = Some s' /\ HOK d n D zi s'.
Proof.
  intros [Sh Z D' St] Hi Hj. unfold hswap. pose proof Sh as [].
  destruct (swap_Z D (hz ho s) i j Z Hi Hj) as [z' [Ez [Z1 [ZS [Hd _]]]]]. rewrite Ez. cbn [obind].
  destruct S_bf0 as [Lb Cb].
  destruct (oswap_len (hbf ho s) i j) as [bf' [E1 [L1 N1]]]; try lia. rewrite E1. cbn [obind].
  destruct (oswap_len (hsig ho s) i j) as [sg' [E2 [L2 _]]]; try lia. rewrite E2. cbn [obind].
  assert (E3 : exists re', (if en_e then oswap (hre ho s) i j else Some (hre ho s)) = Some re' /\ length re' = d).
  { destruct en_e; [|eauto]. destruct (oswap_len (hre ho s) i j) as [x [E3 [L3 _]]]; try lia. exists x. split; auto. lia. }
  destruct E3 as [re' [E3 L3]]. rewrite E3. cbn [obind].
  destruct (oswap_len (hhist ho s) i j) as [hi' [E4 [L4 N4]]]; try lia. rewrite E4. cbn [obind].
  destruct (oswap_len (hnb ho s) i j) as [nb' [E5 [L5 _]]]; try lia. rewrite E5. cbn [obind].
  destruct (oswap_len (hnbe ho s) i j) as [ne' [E6 [L6 _]]]; try lia. rewrite E6. cbn [obind].
  eexists; split; [reflexivity|]. constructor; auto.
  - constructor; cbn; auto; try lia.
    + unfold hd_ in *. cbn. congruence.
    + unfold hn_ in *. cbn. destruct ZS as [e [[F _] _]]. congruence.
    + split; [lia|]. intros a Ha. rewrite N1 by lia. apply Cb. apply tr_lt; lia.
    + intros a Ha. rewrite N4 by lia. apply S_hist3. apply tr_lt; lia.
  - cbn. eapply zs_step; eauto.
Qed.

Lemma R_addmul_some n i x ri rj : i <= n -> length ri = n -> length rj = n ->
  exists r, R_addmul ho i x ri rj = Some r /\ length r = n.
Proof.
  intros. unfold R_addmul.
  destruct (h_is1 ho x); [|destruct (h_ism1 ho x)];
   (edestruct (@rw2_spec FT) with (d := z0) (beg := 0) (n := i) (row := ri) (src := rj) as [r [E [L _]]];
     [lia|lia|rewrite E; exists r; split; [reflexivity|lia]]).
Qed.

Lemma hrow_addmul_we_K d n D zi s i j x e : HOK d n D zi s -> i < D -> j < D -> i <> j -> i <= n ->
  exists s', hrow_addmul_we ho s i j x e = Some s' /\ HOK d n D zi s'.
Proof.
  intros [Sh Z D' St] Hi Hj Hij Hn. unfold hrow_addmul_we. pose proof Sh as [].
  edestruct (row_op_Z D (hz ho s) i j) as [z' [Ez [Z1 [ZS [Hd _]]]]]; eauto. rewrite Ez. cbn [obind].
  destruct (dims_nth _ _ _ i S_R0) as [E1 L1]; try lia. destruct (dims_nth _ _ _ j S_R0) as [E2 L2]; try lia.
  rewrite E1, E2. cbn [obind].
  destruct (R_addmul_some n i x (nth i (hR ho s) []) (nth j (hR ho s) [])) as [r [E3 L3]]; auto.
  rewrite E3. cbn [obind]. eexists; split; [reflexivity|]. constructor; auto.
  - constructor; auto; cbn; auto.
    + unfold hd_ in *. cbn. congruence.
    + unfold hn_ in *. cbn. destruct ZS as [? [[F _] _]]. congruence.
    + apply dims_upd; auto.
  - cbn. eapply zs_step; eauto.
Qed.

Lemma size_reduce_loop_K d n D zi k srs cnt : forall s red, HOK d n D zi s -> k < D -> srs + cnt <= k -> k <= n ->
  exists s' red', size_reduce_loop ho s k srs cnt red = Some (s', red') /\ HOK d n D zi s'.
Proof.
  induction cnt; intros s red K Hk Hs Hn; cbn [size_reduce_loop]; eauto.
  pose proof K as [[] Z D' St].
  rewrite !(mget_some z0 d n) by (auto; lia). cbn [obind].
  rewrite !(fun i H => nth_error_lt (hre ho s) i 0%Z H) by lia. cbn [obind].
  destruct (h_sgn ho _); [|apply IHcnt; auto; lia].
  edestruct (hrow_addmul_we_K d n D zi s k (srs + cnt)) as [s' [E K']]; eauto; try lia.
  rewrite E. cbn [obind]. apply IHcnt; auto; lia.
Qed.

Lemma size_reduce_K d n D zi s k sre srs : HOK d n D zi s -> k < D -> sre <= k -> k <= n -> srs <= k ->
  exists s' red, size_reduce ho s k sre srs = Some (s', red) /\ HOK d n D zi s'.
Proof.
  intros K Hk H1 Hn H2. unfold size_reduce.
  destruct (size_reduce_loop_K d n D zi k srs (sre - srs) s false) as [s' [red [E K']]]; auto; try lia.
  rewrite E. cbn [obind]. do 2 eexists; split; [reflexivity|]. destruct red; auto.
  destruct K' as [[] Z D' St]. constructor; auto; [constructor; auto|apply nkr_Z; auto|].
  eapply zsteps_nkx; [exact St|..]; auto; repeat split.
Qed.

Lemma size_reduction_loop_K d n D zi kappa sre srs : forall fuel s pns, HOK d n D zi s -> kappa < D -> sre <= kappa -> kappa <= n -> srs <= kappa ->
  exists s' b, size_reduction_loop ho en_e fuel s kappa sre srs pns = Some (s', b) /\ HOK d n D zi s'.
Proof.
  induction fuel; intros s pns K Hk H1 Hn H2; cbn [size_reduction_loop]; eauto.
  destruct (size_reduce_K d n D zi s kappa sre srs) as [s1 [red [E1 K1]]]; auto. rewrite E1. cbn [obind].
  destruct red; cbn [negb]; eauto.
  pose proof K1 as [[] _ D1 _].
  rewrite (nth_error_lt (hnb ho s1) kappa z0), (nth_error_lt (hnbe ho s1) kappa 0%Z) by lia. cbn [obind].
  destruct (refresh_R_bf_K d n D zi s1 kappa) as [s2 [E2 [K2 _]]]; auto; try lia. rewrite E2. cbn [obind].
  replace (Nat.max D (S kappa)) with D in K2 by lia. pose proof K2 as [[] _ _ _].
  rewrite (nth_error_lt (hnb ho s2) kappa z0), (nth_error_lt (hnbe ho s2) kappa 0%Z) by lia. cbn [obind].
  destruct (update_R_K d n D zi s2 kappa) as [s3 [E3 [K3 _]]]; auto; try lia. rewrite E3. cbn [obind].
  destruct (_ || _); eauto.
Qed.

Lemma size_reduction_K d n D zi fuel s kappa sre srs : HOK d n D zi s -> kappa < D -> sre <= kappa -> kappa <= n -> srs <= kappa ->
  exists s' b, size_reduction ho en_e fuel s kappa sre srs = Some (s', b) /\ HOK d n D zi s'.
Proof.
  intros K Hk H1 Hn H2. unfold size_reduction. pose proof K as [_ _ D1 _].
  destruct (update_R_K d n D zi s kappa) as [s1 [E1 [K1 _]]]; auto; try lia. rewrite E1. cbn [obind].
  apply size_reduction_loop_K; auto. destruct K1 as [[] Z D' St]. constructor; auto. constructor; auto.
Qed.

Variable Pr : hpar ho.

Record LOK (d n D : nat) (zi : gz) (x : hl ho) : Prop := {
  L_m : HOK d n D zi (lm ho x); L_dR : length (ldR ho x) = d; L_eR : length (leR ho x) = d
}.

Lemma compute_dR_K d n D zi x k : LOK d n D zi x -> k < d -> k < n ->
  exists x', compute_dR ho Pr x k = Some x' /\ LOK d n D zi x' /\ lm ho x' = lm ho x.
Proof.
  intros [K L1 L2] Hk Hn. unfold compute_dR. pose proof K as [[] _ _ _].
  rewrite (mget_some z0 d n) by auto. cbn [obind]. rewrite (nth_error_lt (ldR ho x) k z0) by lia. cbn [obind].
  eexists; split; [reflexivity|]. split; auto. constructor; auto. cbn. now rewrite upd_length.
Qed.
Lemma compute_eR_K d n D zi x k : LOK d n D zi x -> k < d -> k < n ->
  exists x', compute_eR ho Pr x k = Some x' /\ LOK d n D zi x' /\ lm ho x' = lm ho x.
Proof.
  intros [K L1 L2] Hk Hn. unfold compute_eR. pose proof K as [[] _ _ _].
  rewrite (mget_some z0 d n) by auto. cbn [obind]. rewrite (nth_error_lt (leR ho x) k z0) by lia. cbn [obind].
  eexists; split; [reflexivity|]. split; auto. constructor; auto. cbn. now rewrite upd_length.
Qed.

Lemma verify_some d n D zi x k : LOK d n D zi x -> k < d -> k <= n ->
  exists b, verify_size_reduction ho en_e Pr x k = Some b.
Proof.
  intros [K L1 L2] Hk Hn. pose proof K as [[] _ _ _]. unfold verify_size_reduction.
  assert (E : exists p, norm_R_row ho en_e (lm ho x) k k (hn_ ho (lm ho x)) = Some p).
  { unfold norm_R_row. rewrite S_n0. destruct (Nat.eqb_spec n k).
    - cbn [obind]. rewrite (nth_error_lt (hre ho (lm ho x)) k 0%Z) by lia. cbn [obind]. eauto.
    - destruct (dims_nth _ _ _ k S_R0 Hk) as [E L]. rewrite E. cbn [obind].
      destruct (hdot_some (nth k (hR ho (lm ho x)) []) (nth k (hR ho (lm ho x)) []) k n) as [y Ey]; try lia.
      rewrite Ey. cbn [obind]. rewrite (nth_error_lt (hre ho (lm ho x)) k 0%Z) by lia. cbn [obind]. eauto. }
  destruct E as [p E]. rewrite E. cbn [obind].
  edestruct (ofor_inv (fun (_ : nat) (_ : bool) => True)) as [b [Eb _]]; [exact I| |exists b; exact Eb].
  intros i ok Hi _. cbn beta. destruct ok; cbn [negb]; eauto.
  rewrite (mget_some z0 d n) by (auto; lia). cbn [obind].
  rewrite (nth_error_lt (hre ho (lm ho x)) k 0%Z), (nth_error_lt (hre ho (lm ho x)) i 0%Z) by lia. cbn [obind].
  rewrite (nth_error_lt (leR ho x) i z0) by lia. cbn [obind]. eauto.
Qed.

Lemma lovasz_some d n D zi x k : LOK d n D zi x -> 1 <= k -> k < d -> k <= n ->
  exists b, lovasz_test ho en_e x k = Some b.
Proof.
  intros [K L1 L2] H1 Hk Hn. pose proof K as [[] _ _ _]. unfold lovasz_test.
  rewrite (nth_error_lt (hnb ho (lm ho x)) k z0) by lia. cbn [obind].
  assert (E : exists p, norm_square_R_row ho en_e (lm ho x) k 0 (k - 1) = Some p).
  { unfold norm_square_R_row. destruct (Nat.eqb_spec (k - 1) 0).
    - cbn [obind]. rewrite (nth_error_lt (hre ho (lm ho x)) k 0%Z) by lia. cbn [obind]. eauto.
    - destruct (dims_nth _ _ _ k S_R0 Hk) as [E L]. rewrite E. cbn [obind].
      destruct (hdot_some (nth k (hR ho (lm ho x)) []) (nth k (hR ho (lm ho x)) []) 0 (k - 1)) as [y Ey]; try lia.
      rewrite Ey. cbn [obind]. rewrite (nth_error_lt (hre ho (lm ho x)) k 0%Z) by lia. cbn [obind]. eauto. }
  destruct E as [p E]. rewrite E. cbn [obind].
  rewrite (nth_error_lt (hre ho (lm ho x)) (k - 1) 0%Z) by lia. cbn [obind].
  rewrite (nth_error_lt (ldR ho x) (k - 1) z0) by lia. cbn [obind]. eauto.
Qed.

Record VOK (d n : nat) (zi : gz) (x : hl ho) (v : hv ho) : Prop := {
  V_x : LOK d n (S (vkmax ho v)) zi x; V_k1 : 1 <= vk ho v; V_k : vk ho v <= vkmax ho v;
  V_pR : length (vpR ho v) = d; V_pE : length (vpE ho v) = d
}.

(** what holds when an iteration ends the run *)
Definition DONE d n zi (x : hl ho) : Prop := exists D, LOK d n D zi x.

Lemma LOK_setm d n D D' zi x s : LOK d n D zi x -> HOK d n D' zi s -> LOK d n D' zi (l_setm ho x s).
Proof. intros [K L1 L2] K'. constructor; auto. Qed.

Lemma hlll_advance_K d n zi x v : d <= n -> VOK d n zi x v ->
  exists x' v' o, hlll_advance ho en_e Pr x v = Some (x', v', o) /\
    match o with Some _ => DONE d n zi x' | None => VOK d n zi x' v' end.
Proof.
  intros Hdn [LX K1 KM P1 P2]. pose proof LX as [K L1 L2]. pose proof K as [_ _ HD _]. unfold hlll_advance.
  destruct (update_R_last_K d n _ zi (lm ho x) (vk ho v) K) as [m1 [E1 M1]]; try lia. rewrite E1. cbn [obind].
  destruct (compute_dR_K d n (S (vkmax ho v)) zi (l_setm ho x m1) (vk ho v)) as [x1 [E2 [X1 _]]]; [eapply LOK_setm; eauto|lia|lia|].
  rewrite E2. cbn [obind].
  destruct (compute_eR_K d n _ zi x1 (vk ho v) X1) as [x2 [E3 [X2 _]]]; [lia|lia|]. rewrite E3. cbn [obind].
  pose proof X2 as [KX2 _ _]. pose proof KX2 as [[] _ _ _].
  rewrite (mget_some z0 d n) by (auto; lia). cbn [obind].
  rewrite (nth_error_lt (hre ho (lm ho x2)) (vk ho v) 0%Z) by lia. cbn [obind].
  rewrite (nth_error_lt (vpR ho v) (vk ho v) z0), (nth_error_lt (vpE ho v) (vk ho v) 0%Z) by lia. cbn [obind].
  destruct (_ && _).
  { do 3 eexists; split; [reflexivity|]. eexists; eauto. }
  rewrite S_d0. destruct (Nat.ltb_spec (S (vk ho v)) d).
  - destruct (Nat.ltb_spec (vkmax ho v) (S (vk ho v))).
    + destruct (refresh_R_bf_K d n _ zi (lm ho x2) (S (vk ho v)) KX2) as [m2 [E4 [M2 _]]]; try lia.
      rewrite E4. cbn [obind]. do 3 eexists; split; [reflexivity|].
      replace (Nat.max (S (vkmax ho v)) (S (S (vk ho v)))) with (S (S (vk ho v))) in M2 by lia.
      constructor; cbn; rewrite ?upd_length; auto; try lia. eapply LOK_setm; eauto.
    + destruct (refresh_R_K d n _ zi (lm ho x2) (S (vk ho v)) KX2) as [m2 [E4 M2]]; try lia.
      rewrite E4. cbn [obind]. do 3 eexists; split; [reflexivity|].
      constructor; cbn; rewrite ?upd_length; auto; try lia. eapply LOK_setm; eauto.
  - do 3 eexists; split; [reflexivity|]. eexists; eauto.
Qed.

Lemma hlll_back_K d n zi x v : d <= n -> VOK d n zi x v ->
  exists x' v' o, hlll_back ho en_e Pr x v = Some (x', v', o) /\
    match o with Some _ => DONE d n zi x' | None => VOK d n zi x' v' end.
Proof.
  intros Hdn [LX K1 KM P1 P2]. pose proof LX as [K L1 L2]. pose proof K as [_ _ HD _]. unfold hlll_back.
  destruct (vk ho v) as [|k'] eqn:Ek; [lia|].
  destruct (hswap_K d n _ zi (lm ho x) k' (S k') K) as [m1 [E1 M1]]; try lia. rewrite E1. cbn [obind].
  destruct (Nat.eqb_spec k' 0).
  - subst k'.
    destruct (refresh_R_K d n _ zi m1 0 M1) as [m2 [E2 M2]]; try lia. rewrite E2. cbn [obind].
    destruct (update_R_last_K d n _ zi m2 0 M2) as [m3 [E3 M3]]; try lia. rewrite E3. cbn [obind].
    destruct (compute_dR_K d n (S (vkmax ho v)) zi (l_setm ho x m3) 0) as [x1 [E4 [X1 _]]]; [eapply LOK_setm; eauto|lia|lia|].
    rewrite E4. cbn [obind].
    destruct (compute_eR_K d n _ zi x1 0 X1) as [x2 [E5 [X2 _]]]; [lia|lia|]. rewrite E5. cbn [obind].
    destruct (refresh_R_K d n _ zi (lm ho x2) 1 (L_m _ _ _ _ _ X2)) as [m4 [E6 M4]]; try lia. rewrite E6. cbn [obind].
    do 3 eexists; split; [reflexivity|]. constructor; cbn; auto; try lia. eapply LOK_setm; eauto.
  - destruct (recover_R_K d n _ zi m1 k' M1) as [m2 [E2 M2]]; try lia. rewrite E2. cbn [obind].
    do 3 eexists; split; [reflexivity|]. constructor; cbn; auto; try lia. eapply LOK_setm; eauto.
Qed.

Lemma hlll_iter_K d n zi srfuel x v : d <= n -> VOK d n zi x v ->
  exists x' v' o, hlll_iter ho en_e Pr srfuel x v = Some (x', v', o) /\
    match o with Some _ => DONE d n zi x' | None => VOK d n zi x' v' end.
Proof.
  intros Hdn [LX K1 KM P1 P2]. pose proof LX as [K L1 L2]. pose proof K as [_ _ HD _]. unfold hlll_iter.
  destruct (size_reduction_K d n _ zi srfuel (lm ho x) (vk ho v) (vk ho v) 0 K) as [m1 [b [E1 M1]]]; try lia.
  rewrite E1. cbn [obind fst snd].
  assert (X1 : LOK d n (S (vkmax ho v)) zi (l_setm ho x m1)) by (eapply LOK_setm; eauto).
  assert (V1 : VOK d n zi (l_setm ho x m1) v) by (constructor; auto).
  destruct b; cbn [negb].
  - destruct (verify_some d n _ zi _ (vk ho v) X1) as [ok E2]; try lia. rewrite E2. cbn [obind].
    destruct ok; cbn [negb].
    + destruct (lovasz_some d n _ zi _ (vk ho v) X1) as [lt E3]; try lia. rewrite E3. cbn [obind].
      destruct lt; [apply hlll_advance_K|apply hlll_back_K]; auto.
    + do 3 eexists; split; [reflexivity|]. eexists; eauto.
  - do 3 eexists; split; [reflexivity|]. eexists; eauto.
Qed.

Lemma hlll_loop_K d n zi srfuel fuel : forall x v, d <= n -> VOK d n zi x v ->
  exists x' o, hlll_loop ho en_e Pr fuel srfuel x v = Some (x', o) /\ DONE d n zi x'.
Proof.
  induction fuel; intros x v Hdn V; cbn [hlll_loop].
  - do 2 eexists; split; [reflexivity|]. eexists. apply V.
  - destruct (hlll_iter_K d n zi srfuel x v Hdn V) as [x' [v' [o [E H]]]]. rewrite E. cbn [obind fst snd].
    destruct o; eauto.
Qed.

Lemma hlll_init_K d n junk s zi : d <= n -> 2 <= d -> HOK d n 0 zi s ->
  exists x v, hlll_init ho en_e Pr junk s = Some (x, v) /\ VOK d n zi x v.
Proof.
  intros Hdn Hd K. unfold hlll_init. pose proof K as [[] _ _ _].
  destruct (refresh_R_bf_K d n 0 zi s 0 K) as [m1 [E1 [M1 _]]]; try lia. rewrite E1. cbn [obind Nat.max] in *.
  destruct (update_R_last_K d n _ zi m1 0 M1) as [m2 [E2 M2]]; try lia. rewrite E2. cbn [obind].
  destruct (compute_dR_K d n 1 zi (mkhl ho m2 (repeat junk (hd_ ho s)) (repeat junk (hd_ ho s))) 0) as [x1 [E4 [X1 _]]]; try lia.
  { constructor; auto; cbn; rewrite repeat_length; auto. }
  rewrite E4. cbn [obind].
  destruct (compute_eR_K d n _ zi x1 0 X1) as [x2 [E5 [X2 _]]]; [lia|lia|]. rewrite E5. cbn [obind].
  destruct (refresh_R_bf_K d n 1 zi (lm ho x2) 1 (L_m _ _ _ _ _ X2)) as [m3 [E6 [M3 _]]]; try lia. rewrite E6. cbn [obind].
  do 2 eexists; split; [reflexivity|]. constructor; cbn; rewrite ?repeat_length; auto. eapply LOK_setm; eauto.
Qed.

Lemma house_new_K junk b c u ui fl :
  1 <= c -> Inv (gso_new b c u ui false fl) -> rect c b ->
  HOK (length b) c 0 (gso_new b c u ui false fl) (house_new ho junk b c u ui fl).
Proof.
  intros Hc HI HB. constructor.
  - constructor; unfold house_new; cbn; rewrite ?repeat_length; auto;
    try (split; [now rewrite repeat_length|intros a Ha; rewrite nth_repeat_lt by auto; now rewrite repeat_length]).
    intros a Ha. rewrite nth_repeat_lt by auto.
    split; [now rewrite repeat_length|intros a' Ha'; rewrite nth_repeat_lt by auto; now rewrite repeat_length].
  - split; auto.
  - lia.
  - apply zs_eq; auto. apply flags_eq_refl.
Qed.

Theorem hlll_K fuel srfuel junk b c u ui fl :
  2 <= length b <= c -> Inv (gso_new b c u ui false fl) -> rect c b ->
  exists x o, hlll ho en_e Pr fuel srfuel junk (house_new ho junk b c u ui fl) = Some (x, o) /\
    DONE (length b) c (gso_new b c u ui false fl) x.
Proof.
  intros [H1 H2] HI HB. unfold hlll.
  edestruct (hlll_init_K (length b) c junk (house_new ho junk b c u ui fl)) as [x [v [E V]]]; eauto.
  { apply house_new_K; auto; lia. }
  rewrite E. cbn [obind fst snd]. apply (hlll_loop_K (length b) c); auto.
Qed.

End P.
