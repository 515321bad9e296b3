(** C76: the interface to external enumerators. *)
From Coq Require Import List ZArith Arith Bool Lia QArith.
From Verif Require Import ExtModel.
Import ListNotations.
Local Open Scope nat_scope.

(** ** Writing loops *)
Lemma wr_ok {A} (l : list A) k v : k < length l -> exists l', wr l k v = XOk l' /\ length l' = length l /\ nth_error l' k = Some v /\ forall j, j <> k -> nth_error l' j = nth_error l j.
Proof.
  intros H. unfold wr. destruct (Nat.ltb_spec k (length l)); [|lia]. eexists. split; [reflexivity|].
  assert (L : length (firstn k l) = k) by (rewrite firstn_length; lia).
  split; [rewrite app_length; cbn [length]; rewrite skipn_length; lia|]. split.
  - rewrite nth_error_app2 by lia. rewrite L, Nat.sub_diag. reflexivity.
  - intros j Hj. destruct (Nat.lt_ge_cases j k).
    + rewrite nth_error_app1 by lia. rewrite <- (firstn_skipn k l) at 2. rewrite nth_error_app1 by lia. reflexivity.
    + rewrite nth_error_app2 by lia. rewrite L. replace (j - k) with (S (j - S k)) by lia. cbn [nth_error].
      rewrite <- (firstn_skipn (S k) l) at 2. rewrite nth_error_app2 by (rewrite firstn_length; lia). f_equal. rewrite firstn_length. lia.
Qed.
Lemma wr_all_ok {A} (ks : list (nat * A)) : forall l, (forall k v, In (k, v) ks -> k < length l) -> (forall k v v', In (k, v) ks -> In (k, v') ks -> v = v') ->
  exists l', wr_all ks l = XOk l' /\ length l' = length l /\ (forall k v, In (k, v) ks -> nth_error l' k = Some v) /\
    (forall k, (forall v, ~ In (k, v) ks) -> nth_error l' k = nth_error l k).
Proof.
  induction ks as [|[k v] t IH]; intros l HB HF.
  - exists l. repeat split; auto. intros k v [].
  - destruct (wr_ok l k v) as (l1 & E1 & L1 & V1 & O1); [apply (HB k v); now left|].
    destruct (IH l1) as (l2 & E2 & L2 & V2 & O2); [intros k' v' H; rewrite L1; apply (HB k' v'); now right|intros k' v' w H1 H2; apply (HF k' v' w); now right|].
    exists l2. cbn [wr_all]. rewrite E1. cbn [xbind]. split; [exact E2|]. split; [lia|]. split.
    + intros k' v' [H|H]; [|auto]. injection H as <- <-. destruct (in_dec Nat.eq_dec k (map fst t)) as [I|I].
      * apply in_map_iff in I as ((k2, w) & Ek & I). cbn in Ek. subst k2. rewrite (HF k v w (or_introl eq_refl) (or_intror I)). apply V2, I.
      * rewrite O2; [exact V1|]. intros w W. apply I. apply (in_map fst) in W. exact W.
    + intros k' H. rewrite O2; [apply O1; intros ->; apply (H v); now left|]. intros w W. apply (H w). now right.
Qed.
Lemma wr_all_ub {A} (ks : list (nat * A)) : forall l k v, In (k, v) ks -> length l <= k -> wr_all ks l = XUB.
Proof.
  induction ks as [|[k0 v0] t IH]; intros l k v I H; [destruct I|]. destruct I as [I|I].
  - injection I as -> ->. cbn. unfold wr. destruct (Nat.ltb_spec k (length l)); [lia|reflexivity].
  - cbn. destruct (Nat.lt_ge_cases k0 (length l)) as [L|L].
    + destruct (wr_ok l k0 v0 L) as (l1 & E1 & L1 & _). rewrite E1. cbn. apply (IH l1 k v); auto. lia.
    + unfold wr. destruct (Nat.ltb_spec k0 (length l)); [lia|reflexivity].
Qed.
Lemma pos_inj m a b a' b' : b < m -> b' < m -> a * m + b = a' * m + b' -> a = a' /\ b = b'.
Proof. intros H H' E. assert (a = a') by nia. subst. split; lia. Qed.

Section Ext.
Variable o : fops.
Notation F := (FT o).
Notation E := (EF o).
Variable g : gsov o.
Variable EV : Type.
Variable evalS : Z -> list F -> E -> E -> EV -> EV * E.
Variable evalSub : Z -> nat -> list F -> E -> EV -> EV.
Variable fs : bool.

(** ** Specification of the data handed over: entry (i, j) of the transposed (or not) matrix, squared norms scaled by 2^-ne, pruning bounds *)
Definition mu_stored (first d mudim : nat) (tr : bool) (mu : list E) : Prop :=
  forall i j, i < j -> j < d -> nth_error mu (if tr then i * mudim + j else j * mudim + i) = Some (f_d o (g_mu g (first + j) (first + i))).
Definition mu_kept (d mudim : nat) (tr : bool) (mu mu' : list E) : Prop :=
  length mu' = length mu /\ forall p, (forall i j, i < j -> j < d -> p <> if tr then i * mudim + j else j * mudim + i) -> nth_error mu' p = nth_error mu p.
Definition r_stored (first d : nat) (ne : Z) (rd : list E) : Prop :=
  forall i, i < d -> nth_error rd i = Some (f_d o (f_mul2 o (fst (g_r g (first + i))) (snd (g_r g (first + i)) - ne))).
Definition pr_stored (d : nat) (pruning pr : list E) : Prop :=
  forall i, i < d -> nth_error pr i = match pruning with [] => Some (e_one o) | _ => nth_error pruning i end.
Definition prune_ok (d : nat) (pruning : list E) : Prop := pruning = [] \/ length pruning = d.

Theorem set_config_ok first d ne pruning mu rd pr mudim tr : d <= mudim -> length mu = mudim * mudim -> length rd = mudim -> length pr = mudim -> prune_ok d pruning ->
  exists mu' rd' pr', set_config o g first d ne pruning mu rd pr mudim tr = XOk (mu', rd', pr') /\
    mu_stored first d mudim tr mu' /\ mu_kept d mudim tr mu mu' /\ r_stored first d ne rd' /\ pr_stored d pruning pr' /\ length rd' = mudim /\ length pr' = mudim.
Proof.
  intros Hd Lm Lr Lp Hp. unfold set_config.
  edestruct (wr_all_ok (map (fun i => (i, f_d o (f_mul2 o (fst (g_r g (i + first))) (snd (g_r g (i + first)) - ne)))) (seq 0 d)) rd) as (rd' & E1 & L1 & V1 & _).
  { intros k v H. apply in_map_iff in H as (i & Ei & H). apply in_seq in H. injection Ei as <- _. lia. }
  { intros k v v' H H'. apply in_map_iff in H as (i & Ei & _). apply in_map_iff in H' as (j & Ej & _). injection Ei as <- <-. injection Ej as -> <-. reflexivity. }
  rewrite E1. cbn [xbind].
  set (ks := if tr then _ else _).
  assert (KS : forall k v, In (k, v) ks <-> exists i j, i < j /\ j < d /\ k = (if tr then i * mudim + j else j * mudim + i) /\ v = f_d o (g_mu g (j + first) (i + first))).
  { intros k v. unfold ks. destruct tr; rewrite in_flat_map; split.
    - intros (i & Hi & H). apply in_seq in Hi. apply in_map_iff in H as (j & Ej & Hj). apply in_seq in Hj. injection Ej as <- <-. exists i, j. repeat split; lia.
    - intros (i & j & Hij & Hj & -> & ->). exists i. split; [apply in_seq; lia|]. apply in_map_iff. exists j. split; auto. apply in_seq. lia.
    - intros (j & Hj & H). apply in_seq in Hj. apply in_map_iff in H as (i & Ei & Hi). apply in_seq in Hi. injection Ei as <- <-. exists i, j. repeat split; lia.
    - intros (i & j & Hij & Hj & -> & ->). exists j. split; [apply in_seq; lia|]. apply in_map_iff. exists i. split; auto. apply in_seq. lia. }
  destruct (wr_all_ok ks mu) as (mu' & E2 & L2 & V2 & O2).
  { intros k v H. apply KS in H as (i & j & Hij & Hj & -> & _). rewrite Lm. destruct tr; nia. }
  { intros k v v' H H'. apply KS in H as (i & j & Hij & Hj & -> & ->). apply KS in H' as (i' & j' & Hij' & Hj' & Ek & ->).
    destruct tr; apply pos_inj in Ek; try lia; destruct Ek as [<- <-]; reflexivity. }
  rewrite E2. cbn [xbind].
  edestruct (wr_all_ok (map (fun i => (i, match pruning with [] => e_one o | _ => nth i pruning (e_zero o) end)) (seq 0 d)) pr) as (pr' & E3 & L3 & V3 & _).
  { intros k v H. apply in_map_iff in H as (i & Ei & H). apply in_seq in H. injection Ei as <- _. lia. }
  { intros k v v' H H'. apply in_map_iff in H as (i & Ei & _). apply in_map_iff in H' as (j & Ej & _). injection Ei as <- <-. injection Ej as -> <-. reflexivity. }
  rewrite E3. cbn [xbind]. exists mu', rd', pr'. split; [reflexivity|]. split; [|split; [|split; [|split; [|split]]]]; try lia.
  - intros i j Hij Hj. apply V2, KS. exists i, j. repeat split; auto. now rewrite (Nat.add_comm j), (Nat.add_comm i).
  - split; [lia|]. intros p Hp'. apply O2. intros v H. apply KS in H as (i & j & Hij & Hj & -> & _). now apply (Hp' i j Hij Hj).
  - intros i Hi. apply V1. apply in_map_iff. exists i. split; [now rewrite (Nat.add_comm first)|apply in_seq; lia].
  - intros i Hi. rewrite (V3 i (match pruning with [] => e_one o | _ => nth i pruning (e_zero o) end)) by (apply in_map_iff; exists i; split; auto; apply in_seq; lia).
    destruct pruning as [|q t]; [reflexivity|]. destruct Hp as [Hp|Hp]; [discriminate|]. symmetry. apply nth_error_nth'. lia.
Qed.
(** arrays that are too small are overrun *)
Theorem set_config_small first d ne pruning mu rd pr mudim tr : length rd < d -> set_config o g first d ne pruning mu rd pr mudim tr = XUB.
Proof.
  intros H. unfold set_config. erewrite (wr_all_ub _ rd (d - 1)); [reflexivity| |lia]. apply in_map_iff. exists (d - 1). split; [reflexivity|apply in_seq; lia].
Qed.

(** ** The callbacks pass only full vectors to the evaluator, zero below the offset; the bound is the one the evaluator returned *)
Theorem run_ext_inv first d ne pruning (Inv : EV -> E -> Prop) :
  (forall v dist ev md, length v = d -> Inv ev md -> Inv (fst (evalS ne v dist md ev)) (snd (evalS ne v dist md ev))) ->
  (forall off v dist ev md, length v = d -> off <= d -> (forall i, i < off -> nth_error v i = Some (f_of o (e_zero o))) -> Inv ev md -> Inv (evalSub ne off v dist ev) md) ->
  forall t ev md ev' md' nodes, Inv ev md -> run_ext o g EV evalS evalSub first d ne pruning t ev md = XOk (ev', md', nodes) -> Inv ev' md'.
Proof.
  intros HS HB. induction t as [n|mu rd pr mudim tr k IH|dist sol k IH|dist sol off k IH]; intros ev md ev' md' nodes HI H; cbn [run_ext] in H.
  - injection H as <- <- <-. exact HI.
  - destruct (set_config _ _ _ _ _ _ _ _ _ _ _) as [c| |]; try discriminate. cbn [xbind] in H. eapply IH; eauto.
  - unfold sol_coords in H. destruct (Nat.ltb_spec (length sol) d); try discriminate. cbn [xbind] in H. eapply IH; [|exact H]. apply HS; auto. rewrite map_length, firstn_length. lia.
  - unfold sub_coords in H. destruct ((d <? off) || ((off <? d) && (length sol <? d))) eqn:EB; try discriminate. cbn [xbind] in H.
    apply orb_false_iff in EB as [B1 B2]. apply Nat.ltb_ge in B1. eapply IH; [|exact H]. apply HB; auto.
    + rewrite app_length, repeat_length, map_length, firstn_length, skipn_length. destruct (Nat.ltb_spec off d); [|lia]. cbn in B2. apply Nat.ltb_ge in B2. lia.
    + intros i Hi. rewrite nth_error_app1 by (rewrite repeat_length; exact Hi). now apply nth_error_repeat.
Qed.
(** an enumerator that reports only solutions within the last bound it was told (first the one of the call, then the answers of the callback) *)
Fixpoint heeds (le : E -> E -> Prop) (t : ext o) (md : E) : Prop :=
  match t with
  | XRet _ _ => True
  | XCfg _ _ _ _ _ _ k => forall a b c, heeds le (k a b c) md
  | XSol _ dist _ k => le dist md /\ forall md', heeds le (k md') md'
  | XSub _ _ _ _ k => heeds le k md
  end.
(** ... hands the evaluator only such solutions: the bound it was told is the one the evaluator set last *)
Theorem run_ext_heeds first d ne pruning (le : E -> E -> Prop) (Inv : EV -> E -> Prop) :
  (forall v dist ev md, length v = d -> le dist md -> Inv ev md -> Inv (fst (evalS ne v dist md ev)) (snd (evalS ne v dist md ev))) ->
  (forall off v dist ev md, Inv ev md -> Inv (evalSub ne off v dist ev) md) ->
  forall t ev md ev' md' nodes, heeds le t md -> Inv ev md -> run_ext o g EV evalS evalSub first d ne pruning t ev md = XOk (ev', md', nodes) -> Inv ev' md'.
Proof.
  intros HS HB. induction t as [n|mu rd pr mudim tr k IH|dist sol k IH|dist sol off k IH]; intros ev md ev' md' nodes HH HI H; cbn [run_ext heeds] in *.
  - injection H as <- <- <-. exact HI.
  - destruct (set_config _ _ _ _ _ _ _ _ _ _ _) as [c| |]; try discriminate. cbn [xbind] in H. eapply IH; eauto.
  - unfold sol_coords in H. destruct (Nat.ltb_spec (length sol) d); try discriminate. cbn [xbind] in H. destruct HH as [H1 H2].
    eapply IH; [apply H2| |exact H]. apply HS; auto. rewrite map_length, firstn_length. lia.
  - unfold sub_coords in H. destruct ((d <? off) || ((off <? d) && (length sol <? d))) eqn:EB; try discriminate. cbn [xbind] in H. eapply IH; [exact HH| |exact H]. now apply HB.
Qed.
(** ** The exponent: the largest one of the squared norms of the block, at least -1 *)
Theorem norm_exp_largest first d : let n := norm_exp o g first d in let e i := (snd (g_r g (first + i)) + f_exp o (fst (g_r g (first + i))))%Z in
  (-1 <= n)%Z /\ (forall i, i < d -> (e i <= n)%Z) /\ (n = (-1)%Z \/ exists i, i < d /\ n = e i).
Proof.
  cbv zeta. unfold norm_exp. induction d as [|d IH]; [cbn; split; [lia|]; split; [lia|auto]|].
  rewrite seq_S, fold_left_app. cbn [fold_left plus]. destruct IH as [I1 [I2 I3]].
  set (n := fold_left _ (seq 0 d) _) in *. rewrite (Nat.add_comm d first). set (e := fun i => (snd (g_r g (first + i)) + f_exp o (fst (g_r g (first + i))))%Z) in *.
  change (snd (g_r g (first + d)) + f_exp o (fst (g_r g (first + d))))%Z with (e d). split; [lia|]. split.
  - intros i Hi. destruct (Nat.eq_dec i d) as [->|N]; [unfold e; lia|]. assert (L : i < d) by lia. specialize (I2 i L). unfold e in *. lia.
  - destruct (Z.max_spec n (e d)) as [[_ ->]|[_ ->]]; [right; exists d; split; [lia|reflexivity]|]. destruct I3 as [I3|[i [Hi I3]]]; [auto|right; exists i; split; [lia|auto]].
Qed.
(** the coordinates themselves *)
Theorem sol_coords_ok d sol v : sol_coords o d sol = XOk v -> length v = d /\ forall i, i < d -> nth_error v i = option_map (f_of o) (nth_error sol i).
Proof.
  unfold sol_coords. destruct (Nat.ltb_spec (length sol) d); try discriminate. intros H0. injection H0 as <-. split; [rewrite map_length, firstn_length; lia|].
  intros i Hi. rewrite nth_error_map. f_equal. rewrite <- (firstn_skipn d sol) at 2. rewrite nth_error_app1 by (rewrite firstn_length; lia). reflexivity.
Qed.
Lemma nth_error_skip {A} (l : list A) : forall n i, nth_error (skipn n l) i = nth_error l (n + i).
Proof. induction l as [|a l IH]; intros [|n] i; cbn; auto. now destruct i. Qed.
Theorem sub_coords_ok d off sol v : sub_coords o d off sol = XOk v -> length v = d /\ off <= d /\
  forall i, i < d -> nth_error v i = if i <? off then Some (f_of o (e_zero o)) else option_map (f_of o) (nth_error sol i).
Proof.
  unfold sub_coords. destruct ((d <? off) || ((off <? d) && (length sol <? d))) eqn:EB; try discriminate. intros H. injection H as <-.
  apply orb_false_iff in EB as [B1 B2]. apply Nat.ltb_ge in B1.
  assert (LS : off < d -> d <= length sol). { intros L. destruct (Nat.ltb_spec off d); [|lia]. cbn in B2. now apply Nat.ltb_ge in B2. }
  split; [rewrite app_length, repeat_length, map_length, firstn_length, skipn_length; destruct (Nat.lt_ge_cases off d); [specialize (LS H)|]; lia|]. split; [exact B1|].
  intros i Hi. destruct (Nat.ltb_spec i off).
  - rewrite nth_error_app1 by (rewrite repeat_length; lia). now apply nth_error_repeat.
  - rewrite nth_error_app2 by (rewrite repeat_length; lia). rewrite repeat_length, nth_error_map. f_equal.
    specialize (LS ltac:(lia)).
    transitivity (nth_error (skipn off sol) (i - off)); [|rewrite nth_error_skip; f_equal; lia].
    rewrite <- (firstn_skipn (d - off) (skipn off sol)) at 2. rewrite nth_error_app1 by (rewrite firstn_length, skipn_length; lia). reflexivity.
Qed.

(** ** The external enumerator gets the data of the internal one: rdiag, mut, the bounds of every level, the exponent *)
Theorem ext_same_data first d pruning mudim mu rd pr fmaxdist fexpo :
  (forall a b, e_mul o a b = e_mul o b a) -> (forall a, e_mul o (e_one o) a = a) -> prune_ok d pruning ->
  let ne := dyn_normexp o g first d false in
  mu_stored first d mudim true mu -> r_stored first d ne rd -> pr_stored d pruning pr ->
  let md := ext_maxdist o fmaxdist fexpo (norm_exp o g first d) false in
  ne = norm_exp o g first d /\ md = dyn_maxdist o fmaxdist fexpo ne /\
  (forall i, i < d -> nth_error rd i = Some (dyn_rdiag o g first d false ne i)) /\
  (forall i j, i < j -> j < d -> nth_error mu (i * mudim + j) = Some (dyn_mut o g first d false i j)) /\
  (forall i, i < d -> option_map (e_mul o md) (nth_error pr i) = Some (dyn_bound o pruning md i)).
Proof.
  intros HC H1 HP ne HM HR HPr md. split; [reflexivity|]. split; [reflexivity|]. split; [|split].
  - intros i Hi. rewrite (HR i Hi). unfold dyn_rdiag. now rewrite (Nat.add_comm first).
  - intros i j Hij Hj. rewrite (HM i j Hij Hj). unfold dyn_mut. now rewrite (Nat.add_comm first j), (Nat.add_comm first i).
  - intros i Hi. rewrite (HPr i Hi). unfold dyn_bound. destruct pruning as [|q t]; [cbn; now rewrite HC, H1|]. destruct HP as [HP|HP]; [discriminate|].
    rewrite (nth_error_nth' (q :: t) (e_zero o)) by (rewrite HP; exact Hi). cbn [option_map]. f_equal. apply HC.
Qed.
(** in the dual case only for the exponent 0 of the bound *)
Theorem ext_dual_bound_zero first d fmaxdist : ext_maxdist o fmaxdist 0 (norm_exp o g first d) true = dyn_maxdist o fmaxdist 0 (dyn_normexp o g first d true).
Proof. unfold ext_maxdist, dyn_maxdist, dyn_normexp. do 2 f_equal. lia. Qed.
End Ext.

(** ** enumlib: the template is instantiated with the very dimension, from 11 to the last multiple of 10 allowed *)
Theorem lib_dim_ok maxpar dim dual : (0 <= maxpar)%Z ->
  lib_dim maxpar dim dual = if negb dual && (11 <=? dim)%Z && (dim <=? Z.min 160 (10 * (maxpar / 10)))%Z then LTmpl (Z.to_nat dim) else LUnsup.
Proof.
  intros H0. unfold lib_dim. destruct dual; [rewrite orb_true_r; reflexivity|]. rewrite orb_false_r. cbn [negb andb].
  pose proof (Z.div_mod maxpar 10 ltac:(lia)) as DM. pose proof (Z.mod_pos_bound maxpar 10 ltac:(lia)) as MB.
  destruct (Z.leb_spec dim 10) as [D|D]; [destruct (Z.leb_spec 11 dim); [exfalso; lia|reflexivity]|]. destruct (Z.leb_spec 11 dim) as [D'|D']; [|exfalso; lia]. cbn [andb].
  set (q := (maxpar / 10)%Z) in *. 
  assert (G : forall bs, (forall b, In b bs -> exists k, b = (10 * k)%Z /\ (k <= 16)%Z) -> forall lo, (10 * lo < dim)%Z ->
    bs = map (fun k => (10 * (lo + 1 + Z.of_nat k))%Z) (seq 0 (length bs)) -> (lo + Z.of_nat (length bs) = 16)%Z ->
    lib_chain maxpar dim bs = if (dim <=? Z.min 160 (10 * q))%Z then LTmpl (Z.to_nat dim) else LUnsup).
  { induction bs as [|b bs IH]; intros Hb lo Hlo Ebs HL; cbn [length] in HL.
    - cbn [lib_chain]. destruct (Z.leb_spec dim (Z.min 160 (10 * q))); [exfalso; lia|reflexivity].
    - assert (Eb : b = (10 * (lo + 1))%Z) by (apply (f_equal (hd 0%Z)) in Ebs; cbn [hd length seq map] in Ebs; lia). apply (f_equal (@tl Z)) in Ebs. cbn [tl length seq map] in Ebs. rename Ebs into Et. cbn [lib_chain]. unfold lib_switch.
      destruct (Z.leb_spec b maxpar); [destruct (Z.leb_spec dim b)|]; cbn [andb].
      + destruct (Z.leb_spec (b - 9) dim); [|lia]. cbn [andb]. destruct (Z.leb_spec dim (Z.min 160 (10 * q))); [reflexivity|exfalso; lia].
      + apply (IH ltac:(intros b' Hb'; apply Hb; now right) (lo + 1)%Z); [lia| |lia]. rewrite Et at 1. rewrite <- seq_shift, map_map. apply map_ext. intros k. lia.
      + destruct (Z.leb_spec dim (Z.min 160 (10 * q))); [exfalso; lia|].
        clear - Et H Hlo Eb HL. revert Et. generalize 1%nat. assert (W : (forall b', In b' bs -> (maxpar < b')%Z) -> lib_chain maxpar dim bs = LUnsup).
        { clear. induction bs as [|c bs IH]; intros W; [reflexivity|]. cbn. destruct (Z.leb_spec c maxpar); [specialize (W c (or_introl eq_refl)); lia|]. cbn. apply IH. intros b' Hb'. apply W. now right. }
        intros n Et. apply W. intros b' Hb'. rewrite Et in Hb'. apply in_map_iff in Hb' as (k & <- & _). lia. }
  apply (G _) with (lo := 1%Z); [|lia|reflexivity|reflexivity].
  intros b Hb. exists (b / 10)%Z. cbn in Hb. repeat (destruct Hb as [<-|Hb]; [split; [reflexivity|cbn; lia]|]). destruct Hb.
Qed.
(** the largest dimension allowed by the build option is not supported if it is no multiple of 10 *)
Theorem lib_max_refuted : exists maxpar dim, (10 < dim <= maxpar)%Z /\ (maxpar <= 160)%Z /\ lib_dim maxpar dim false = LUnsup.
Proof. exists 25%Z, 25%Z. repeat split; discriminate. Qed.
Example lib_dim_ex : lib_dim 120 57 false = LTmpl 57 /\ lib_dim 120 121 false = LUnsup /\ lib_dim 120 57 true = LUnsup /\ lib_dim 120 10 false = LUnsup /\ lib_dim 200 161 false = LUnsup.
Proof. repeat split. Qed.

Section Lib.
Variable o : fops.
Notation F := (FT o).
Notation E := (EF o).
Variable g : gsov o.
Variable EV : Type.
Variable evalS : Z -> list F -> E -> E -> EV -> EV * E.
Variable evalSub : Z -> nat -> list F -> E -> EV -> EV.
Variable fs : bool.
Variable maxpar : Z.
Hypothesis maxpar_pos : (0 <= maxpar)%Z.
Variable lat : nat -> list E -> list E -> list E -> E -> bool -> (list E -> list (list E) -> list Z -> ext o) -> ext o.
Variable junk : nat -> list E.
Hypothesis junk_len : forall n, length (junk n) = n.
Variable dyn : nat -> Z -> F -> Z -> list F -> list E -> list E -> bool -> bool -> EV -> xres (EV * F * list Z).
Notation enum := (enumerate o g EV evalS evalSub fs (Some (enumlib_ext o maxpar lat junk)) dyn).

(** the block and the dimensions with a template *)
Definition block (first : nat) (last : Z) (d : nat) : Prop := (first + d <= g_d g)%nat /\ (last = Z.of_nat (first + d) \/ (last = -1)%Z /\ (first + d = g_d g)%nat).
Definition supported (d : nat) : Prop := (11 <= Z.of_nat d <= 160)%Z /\ exists m, (Z.of_nat d <= 10 * m <= maxpar)%Z.

Lemma block_dim_ok first last d : block first last d -> block_dim o g first last = XOk d.
Proof.
  intros [H [->|[-> H2]]]; unfold block_dim.
  - destruct (Z.eqb_spec (Z.of_nat (first + d)) (-1)); [lia|]. destruct (Z.ltb_spec (Z.of_nat (first + d)) (Z.of_nat first)); [lia|].
    destruct (Z.ltb_spec (Z.of_nat (g_d g)) (Z.of_nat (first + d))); [lia|]. cbn [orb]. f_equal. lia.
  - rewrite Z.eqb_refl. destruct (Z.ltb_spec (Z.of_nat (g_d g)) (Z.of_nat first)); [lia|]. rewrite Z.ltb_irrefl. cbn [orb]. f_equal. lia.
Qed.
Lemma supported_dim d : supported d <-> lib_dim maxpar (Z.of_nat d) false = LTmpl d.
Proof.
  rewrite lib_dim_ok by exact maxpar_pos. cbn [negb andb]. pose proof (Z.div_mod maxpar 10 ltac:(lia)) as DM. pose proof (Z.mod_pos_bound maxpar 10 ltac:(lia)) as MB.
  destruct (Z.leb_spec 11 (Z.of_nat d)); destruct (Z.leb_spec (Z.of_nat d) (Z.min 160 (10 * (maxpar / 10)))); cbn [andb]; rewrite ?Nat2Z.id; split; try discriminate; try reflexivity.
  - intros _. split; [lia|]. exists (maxpar / 10)%Z. lia.
  - intros [B (m & M)]. assert (m <= maxpar / 10)%Z by (apply Z.div_le_lower_bound; lia). lia.
  - intros [B _]. lia.
  - intros [B _]. lia.
Qed.
Lemma unsupported_dim d : ~ supported d -> lib_dim maxpar (Z.of_nat d) false = LUnsup.
Proof. intros H. rewrite supported_dim in H. revert H. rewrite lib_dim_ok by exact maxpar_pos. rewrite Nat2Z.id. destruct (_ && _); tauto. Qed.

(** ** For a supported dimension, lattice_enum_t is run on the data of the basis, then its sub-solutions are reported and the counts returned *)
Theorem enumlib_runs first last d fmaxdist fexpo pruning srst ev : block first last d -> supported d -> prune_ok o d pruning ->
  let ne := norm_exp o g first d in
  exists mu rd pr, mu_stored o g first d d true mu /\ r_stored o g first d ne rd /\ pr_stored o d pruning pr /\ length mu = (d * d)%nat /\ length rd = d /\ length pr = d /\
  enum first last fmaxdist fexpo [] [] pruning false srst ev =
    let md := f_du o (f_mul2 o fmaxdist (fexpo - ne)) in
    xbind (run_ext o g EV evalS evalSub first d ne pruning (lat d mu rd pr md fs (fun subL sub counts =>
        let ret := XRet o (counts ++ repeat 0%Z (1024 - length counts)) in if fs then report_subs o (seq 0 d) subL rd sub ret else ret)) ev md) (fun r =>
    match snd r with [] => XUB | n :: _ => if (n =? 2 ^ 64 - 1)%Z then dyn first last fmaxdist fexpo [] [] pruning false srst (fst (fst r)) else XOk (fst (fst r), fmaxdist, snd r) end).
Proof.
  intros HB HS HP ne. pose proof (proj1 (supported_dim d) HS) as HD.
  destruct (set_config_ok o g first d ne pruning (junk (d * d)) (junk d) (junk d) d true (le_n d)) as (mu & rd & pr & EC & M & K & R & P & Lr & Lp); auto.
  exists mu, rd, pr. split; [exact M|]. split; [exact R|]. split; [exact P|]. split; [destruct K as [K _]; rewrite K; apply junk_len|]. split; [exact Lr|]. split; [exact Lp|].
  unfold enumerate, ext_enumerate. rewrite (block_dim_ok _ _ _ HB). cbn [xbind].
  replace (match pruning with [] => true | _ => length pruning =? d end) with true by (destruct pruning; auto; destruct HP as [HP|HP]; [discriminate|now rewrite HP, Nat.eqb_refl]).
  cbn [negb]. unfold enumlib_ext at 1. rewrite HD. unfold lib_detail. cbn [run_ext]. fold ne. rewrite EC. cbn [xbind fst snd]. unfold ext_maxdist.
  destruct (run_ext _ _ _ _ _ _ _ _ _ _ _ _) as [[[ev' md'] nodes]| |]; cbn [xbind fst snd]; auto. destruct nodes as [|n t]; cbn [xbind fst snd]; auto.
  unfold no_nodes. destruct (n =? 2 ^ 64 - 1)%Z; reflexivity.
Qed.
(** ** otherwise the internal enumerator gets the same arguments and the same evaluator *)
Theorem enumlib_fallback first last d fmaxdist fexpo target subtree pruning dual srst ev : block first last d -> prune_ok o d pruning ->
  (dual = true \/ ~ supported d \/ target <> [] \/ subtree <> []) ->
  enum first last fmaxdist fexpo target subtree pruning dual srst ev = dyn first last fmaxdist fexpo target subtree pruning dual srst ev.
Proof.
  intros HB HP H. unfold enumerate. destruct subtree as [|x st]; [|reflexivity]. destruct target as [|y tg]; [|reflexivity].
  unfold ext_enumerate. rewrite (block_dim_ok _ _ _ HB). cbn [xbind].
  replace (match pruning with [] => true | _ => length pruning =? d end) with true by (destruct pruning; auto; destruct HP as [HP|HP]; [discriminate|now rewrite HP, Nat.eqb_refl]).
  cbn [negb]. unfold enumlib_ext at 1.
  assert (U : lib_dim maxpar (Z.of_nat d) dual = LUnsup).
  { destruct dual; [unfold lib_dim; now rewrite orb_true_r|]. destruct H as [H|[H|[H|H]]]; try congruence. now apply unsupported_dim. }
  rewrite U. reflexivity.
Qed.
(** a pruning vector of another dimension aborts the program *)
Theorem enum_pruning_abort first last d fmaxdist fexpo pruning dual srst ev : block first last d -> ~ prune_ok o d pruning ->
  enum first last fmaxdist fexpo [] [] pruning dual srst ev = XAbort.
Proof.
  intros HB HP. unfold enumerate, ext_enumerate. rewrite (block_dim_ok _ _ _ HB). cbn [xbind].
  destruct pruning as [|p t]; [exfalso; apply HP; now left|]. destruct (Nat.eqb_spec (length (p :: t)) d); [exfalso; apply HP; now right|reflexivity].
Qed.

(** ** The sub-solutions reported: those strictly shorter than the basis vector, in the order of their offset, each with zeros below it *)
Definition sub_vec (d : nat) (sub : list (list E)) (j : nat) (v : list F) : Prop :=
  length v = d /\ forall i, i < d -> nth_error v i = if i <? j then Some (f_of o (e_zero o)) else option_map (f_of o) (nth_error (nth j sub []) i).
Fixpoint sub_evs (ne : Z) (d : nat) (subL risq : list E) (sub : list (list E)) (js : list nat) (ev ev' : EV) : Prop :=
  match js with
  | [] => ev' = ev
  | j :: t => if e_lt o (nth j subL (e_zero o)) (nth j risq (e_zero o))
      then exists v, sub_vec d sub j v /\ sub_evs ne d subL risq sub t (evalSub ne j v (nth j subL (e_zero o)) ev) ev'
      else sub_evs ne d subL risq sub t ev ev'
  end.
Theorem report_subs_ok first d ne pruning subL risq sub nodes md : (forall j, j < d -> length (nth j sub []) = d) ->
  forall js ev, (forall j, In j js -> j < d) -> exists ev', run_ext o g EV evalS evalSub first d ne pruning (report_subs o js subL risq sub (XRet o nodes)) ev md = XOk (ev', md, nodes) /\
    sub_evs ne d subL risq sub js ev ev'.
Proof.
  intros HL. induction js as [|j t IH]; intros ev Hj; cbn [report_subs].
  - exists ev. split; reflexivity.
  - cbn [sub_evs]. destruct (e_lt o _ _); [|apply IH; intros; apply Hj; now right]. cbn [run_ext].
    assert (J : j < d) by (apply Hj; now left). destruct (sub_coords o d j (nth j sub [])) as [v| |] eqn:EV1.
    + cbn [xbind]. destruct (IH (evalSub ne j v (nth j subL (e_zero o)) ev)) as (ev' & R1 & R2); [intros; apply Hj; now right|].
      exists ev'. split; [exact R1|]. exists v. split; [|exact R2]. apply sub_coords_ok in EV1 as (L & _ & V). split; [exact L|exact V].
    + unfold sub_coords in EV1. destruct (_ || _); discriminate.
    + unfold sub_coords in EV1. rewrite (HL j J) in EV1. rewrite (proj2 (Nat.ltb_ge d j)), Nat.ltb_irrefl, andb_false_r in EV1 by lia. discriminate.
Qed.
End Lib.

(** ** get_nodes: right below 2^31, wrong above *)
Lemma to_int_small z : (0 <= z < 2 ^ 31)%Z -> to_int z = z.
Proof. intros H. unfold to_int. rewrite Z.mod_small by lia. destruct (Z.ltb_spec z (2 ^ 31)); lia. Qed.
Definition zsum (l : list Z) : Z := fold_right Z.add 0%Z l.
Lemma zsum_nonneg l : Forall (fun n => 0 <= n)%Z l -> (0 <= zsum l)%Z.
Proof. induction 1 as [|n l Hn _ IH]; [cbn; lia|]. change (zsum (n :: l)) with (n + zsum l)%Z. lia. Qed.
Theorem get_nodes_ok nodes : Forall (fun n => 0 <= n)%Z nodes -> (zsum nodes < 2 ^ 31)%Z -> get_nodes nodes = zsum nodes.
Proof.
  intros HN HS. unfold get_nodes.
  assert (G : forall l a, Forall (fun n => 0 <= n)%Z l -> (0 <= a)%Z -> (a + zsum l < 2 ^ 31)%Z -> fold_left (fun a n => to_int ((a + n) mod 2 ^ 64)) l a = (a + zsum l)%Z).
  { induction l as [|n l IH]; intros a Hl Ha Hs; cbn [fold_left]; [cbn; lia|]. change (zsum (n :: l)) with (n + zsum l)%Z in *. inversion_clear Hl. pose proof (zsum_nonneg l H0).
    rewrite Z.mod_small by lia. rewrite to_int_small by lia. rewrite IH by (auto; lia). lia. }
  rewrite (G nodes 0%Z HN) by lia. pose proof (zsum_nonneg _ HN). rewrite Z.add_0_l. apply Z.mod_small. lia.
Qed.
Theorem get_nodes_refuted : exists nodes, Forall (fun n => 0 <= n < 2 ^ 64)%Z nodes /\ (zsum nodes < 2 ^ 64)%Z /\ get_nodes nodes <> zsum nodes.
Proof. exists [2 ^ 31]%Z. split; [repeat constructor; lia|]. split; [reflexivity|discriminate]. Qed.
(** 2^32 nodes on one level are reported as none *)
Example get_nodes_zero : get_nodes [2 ^ 32]%Z = 0%Z /\ get_nodes [2 ^ 31]%Z = (2 ^ 64 - 2 ^ 31)%Z /\ get_nodes [5; 7; 3]%Z = 15%Z.
Proof. repeat split. Qed.

(** ** Concrete numbers: FT = enumf = Q *)
Definition q_exp (x : Q) : Z := (Z.log2 (Z.abs (Qnum x)) - Z.log2 (Z.pos (Qden x)) + 1)%Z.
Definition q_mul2 (x : Q) (k : Z) : Q := Qred (x * Qpower 2 k).
Definition qops : fops := Build_fops Q Q q_mul2 (fun x => x) (fun x => x) q_exp (fun x => x) (fun x => Qred (/ x)) (fun x => Qred (- x)) 1%Q 0%Q (fun a b => negb (Qle_bool b a)) (fun a b => Qred (a * b)).
(** squared norms 4 * 2^i, 3 * 2^i of two vectors with row exponent i *)
Definition gq (i : Z) : gsov qops := Build_gsov qops 2 (fun k => ((if (k =? 0)%nat then 4 else 3)%Q, i)) (fun _ _ => (1 # 2)%Q).
(** an evaluator that keeps the calls it got, and sets the bound to the distance *)
Definition evq (n : Z) (v : list Q) (d md : Q) (l : list (Z * list Q * Q)) : list (Z * list Q * Q) * Q := (l ++ [(n, v, d)], d).
Definition evqs (n : Z) (off : nat) (v : list Q) (d : Q) (l : list (Z * list Q * Q)) : list (Z * list Q * Q) := l ++ [(n, v, d)].
(** an external enumerator: asks for the data, reports one vector and a sub-solution *)
Definition exq (d : nat) (md : Q) (dual fs : bool) : ext qops :=
  XCfg qops (repeat 7%Q 4) (repeat 7%Q 2) (repeat 7%Q 2) 2 true (fun mu rd pr =>
  XSol qops (nth 0 rd 0%Q) [1; 0]%Q (fun md => XSub qops (nth 1 rd 0%Q) [9; 1]%Q 1 (XRet qops [3; 2]%Z))).
Definition dynq (first : nat) (last : Z) (fm : Q) (fe : Z) (t : list Q) (s pr : list Q) (dual r : bool) (ev : list (Z * list Q * Q)) : xres (list (Z * list Q * Q) * Q * list Z) := XUB.
Example ext_run_ex : ext_enumerate qops (gq 5) _ evq evqs true (Some exq) 0 (-1)%Z 4%Q 5%Z [] false [] = XOk (true, [(8%Z, [1; 0]%Q, (1 # 2)%Q); (8%Z, [0; 1]%Q, (3 # 8)%Q)], [3; 2]%Z).
Proof. vm_compute. reflexivity. Qed.
Example set_config_ex : set_config qops (gq 5) 0 2 8 [] (repeat 7 4)%Q (repeat 7 2)%Q (repeat 7 2)%Q 2 true = XOk ([7; 1 # 2; 7; 7]%Q, [1 # 2; 3 # 8]%Q, [1; 1]%Q) /\
  set_config qops (gq 5) 0 2 8 [1; 1 # 3]%Q (repeat 7 4)%Q (repeat 7 2)%Q (repeat 7 2)%Q 2 false = XOk ([7; 7; 1 # 2; 7]%Q, [1 # 2; 3 # 8]%Q, [1; 1 # 3]%Q).
Proof. vm_compute. split; reflexivity. Qed.

(** an enumerator that reports two vectors, each of the length of the bound it knows; the evaluator of the run halves the bound *)
Definition hq (md : Q) : ext qops := XSol qops md [1; 0]%Q (fun m => XSol qops m [0; 1]%Q (fun _ => XRet qops [2]%Z)).
Definition evh (n : Z) (v : list Q) (d md : Q) (l : list (Z * list Q * Q)) : list (Z * list Q * Q) * Q := (l ++ [(n, v, d)], Qred (md / 2)).
Example heeds_ex : heeds qops eq (hq 4%Q) 4%Q /\
  run_ext qops (gq 5) _ evh evqs 0 2 8%Z [] (hq 4%Q) [] 4%Q = XOk ([(8%Z, [1; 0]%Q, 4%Q); (8%Z, [0; 1]%Q, 2%Q)], 1%Q, [2%Z]).
Proof. split; [cbn; repeat split|vm_compute; reflexivity]. Qed.
(** all norms below 1/2: exponent -1 *)
Example norm_exp_ex : norm_exp qops (gq (-7)) 0 2 = (-1)%Z /\ norm_exp qops (gq 5) 0 2 = 8%Z.
Proof. vm_compute. split; reflexivity. Qed.

(** ** The caller's variable with the bound: the internal enumerator stores the final bound there, the external one leaves it *)
Theorem ext_fmaxdist_kept o g EV evalS evalSub fs x dyn first last fmaxdist fexpo pruning dual srst ev ev' nodes :
  ext_enumerate o g EV evalS evalSub fs (Some x) first last fmaxdist fexpo pruning dual ev = XOk (true, ev', nodes) ->
  enumerate o g EV evalS evalSub fs (Some x) dyn first last fmaxdist fexpo [] [] pruning dual srst ev = XOk (ev', fmaxdist, nodes).
Proof. intros H. unfold enumerate. rewrite H. reflexivity. Qed.
(** the internal one returns the bound in the caller's scale: with exact scaling, the caller's value if no solution was found *)
Theorem dyn_final_back o fmaxdist fexpo ne : (forall x a b, f_mul2 o (f_mul2 o x a) b = f_mul2 o x (a + b)) -> (forall x, f_mul2 o x 0 = x) -> (forall x, f_of o (f_du o x) = x) ->
  dyn_final o (dyn_maxdist o fmaxdist fexpo ne) ne fexpo = fmaxdist.
Proof. intros H1 H2 H3. unfold dyn_final, dyn_maxdist. rewrite H3, H1. replace (fexpo - ne + (ne - fexpo))%Z with 0%Z by lia. apply H2. Qed.
Example dyn_final_ex : dyn_final qops (dyn_maxdist qops (7 # 3)%Q 5 8) 8 5 = (7 # 3)%Q /\ dyn_maxdist qops (7 # 3)%Q 5 8 = (7 # 24)%Q.
Proof. vm_compute. split; reflexivity. Qed.
(** numbers meeting the hypotheses: m * 2^e with e apart *)
Example dyn_final_hyps : let p2 := Build_fops (Z * Z) (Z * Z) (fun x k => (fst x, (snd x + k)%Z)) (fun x => x) (fun x => x) snd (fun x => x) (fun x => x) (fun x => x) (1, 0)%Z (0, 0)%Z (fun _ _ => false) (fun a _ => a) in
  (forall x a b, f_mul2 p2 (f_mul2 p2 x a) b = f_mul2 p2 x (a + b)) /\ (forall x, f_mul2 p2 x 0 = x) /\ (forall x, f_of p2 (f_du p2 x) = x) /\ dyn_final p2 (dyn_maxdist p2 (7, 3)%Z 5 8) 8 5 = (7, 3)%Z.
Proof. cbn. split; [intros [m e] a b; cbn; f_equal; lia|]. split; [intros [m e]; cbn; f_equal; lia|]. split; auto. Qed.
(** although the bound in force at the end (and the exponents) are those for which the internal enumerator returns another value *)
Theorem ext_fmaxdist_refuted : exists g x fmaxdist fexpo ev' fm nodes md,
  enumerate qops g _ evq evqs true (Some x) dynq 0 (-1) fmaxdist fexpo [] [] [] false false [] = XOk (ev', fm, nodes) /\
  run_ext qops g _ evq evqs 0 2 (norm_exp qops g 0 2) [] (x 2 (ext_maxdist qops fmaxdist fexpo (norm_exp qops g 0 2) false) false true) [] (ext_maxdist qops fmaxdist fexpo (norm_exp qops g 0 2) false) = XOk (ev', md, nodes) /\
  fm = fmaxdist /\ ~ Qeq fm (dyn_final qops md (dyn_normexp qops g 0 2 false) fexpo).
Proof.
  exists (gq 5), exq, 5%Q, 5%Z. do 4 eexists. split; [vm_compute; reflexivity|]. split; [vm_compute; reflexivity|]. split; [reflexivity|]. vm_compute. discriminate.
Qed.
(** ** In the dual case, with the exponent negated by the caller (bkz.cpp:310-316), the external enumerator gets a bound in another scale:
    the caller's radius is that of the last vector, 1/3 * 2^-5; divided by the scale it has to be 1/rdiag of that vector *)
Theorem ext_dual_bound_refuted : exists g i, let ne := norm_exp qops g 0 2 in let fmax := Qred (/ fst (g_r g 1)) in let fexpo := (- snd (g_r g 1))%Z in
  i = snd (g_r g 1) /\ Qeq (dyn_maxdist qops fmax fexpo (dyn_normexp qops g 0 2 true)) (dyn_rdiag qops g 0 2 true (dyn_normexp qops g 0 2 true) 0) /\
  ~ Qeq (ext_maxdist qops fmax fexpo ne true) (dyn_rdiag qops g 0 2 true (dyn_normexp qops g 0 2 true) 0).
Proof. exists (gq 5), 5%Z. vm_compute. repeat split; discriminate. Qed.
(** and the evaluator gets the exponent with the other sign *)
Theorem ext_dual_normexp_refuted : exists g x ev' nodes, ext_enumerate qops g _ evq evqs true (Some x) 0 (-1) (1 # 3)%Q (-5) [] true [] = XOk (true, ev', nodes) /\
  Forall (fun c => fst (fst c) <> dyn_normexp qops g 0 2 true) ev' /\ ev' <> [].
Proof. exists (gq 5), exq. do 2 eexists. split; [vm_compute; reflexivity|]. split; [repeat constructor; vm_compute; discriminate|discriminate]. Qed.

(** ** hypotheses met *)
Example lib_ex_hyps : block qops (Build_gsov qops 50 (fun _ => (1%Q, 0%Z)) (fun _ _ => 0%Q)) 7 (-1)%Z 43 /\ supported 120%Z 43 /\ prune_ok qops 43 (repeat 1%Q 43) /\ ~ supported 25%Z 25.
Proof. split; [split; [cbn; lia|right; cbn; lia]|]. split; [split; [lia|exists 5%Z; lia]|]. split; [right; reflexivity|]. intros [_ (m & M)]. lia. Qed.
(** a lattice_enum_t that reports rdiag and no sub-solution *)
Definition latq (n : nat) (mu rd pr : list Q) (md : Q) (fs : bool) (k : list Q -> list (list Q) -> list Z -> ext qops) : ext qops :=
  XSol qops (nth 3 rd 0%Q) (repeat 0 3 ++ [1] ++ repeat 0 (n - 4))%Q (fun _ => k [1; 3]%Q (repeat (repeat 1%Q n) n) [7; 9]%Z).
Example enumlib_ex :
  match enumerate qops (Build_gsov qops 12 (fun k => (inject_Z (Z.of_nat k + 1), 0%Z)) (fun _ _ => 0%Q)) _ evq evqs true (Some (enumlib_ext qops 40 latq (repeat 5%Q))) dynq 0 (-1) 12%Q 0 [] [] [] false false [] with
  | XOk (ev, fm, nodes) => Some (ev, fm, firstn 3 nodes, length nodes) | _ => None end =
  Some ([(4%Z, (repeat 0 3 ++ [1] ++ repeat 0 8)%Q, (1 # 4)%Q)] ++ map (fun j => (4%Z, (repeat 0 j ++ repeat 1 (12 - j))%Q, 0%Q)) (seq 2 10), 12%Q, [7; 9; 0]%Z, 1024).
Proof. vm_compute. reflexivity. Qed.

Print Assumptions set_config_ok.
Print Assumptions run_ext_heeds.
Print Assumptions norm_exp_largest.
Print Assumptions ext_same_data.
Print Assumptions enumlib_runs.
Print Assumptions enumlib_fallback.
Print Assumptions report_subs_ok.
Print Assumptions get_nodes_ok.
Print Assumptions ext_dual_bound_refuted.
