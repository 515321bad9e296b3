(** Proofs about the exact model of BKZ (BkzExactModel.v): the block enumeration, the insertion, one call of
    svp_reduction.  Not part of the model (proofs for PropBkzExact.v). *)
From Coq Require Import List ZArith QArith Qcanon Lia Lqa Arith Bool.
From Verif Require Import Util QcUtil LatticeSpec MatrixModel MatrixProofs GsoModel GsoProofs GsoHistory GsoFModel GsoFSpec GsoFProofs GsoQ QGs
  LllModel LllQ LllExact LllDecide LllSpec LllSpecFacts GramDet LatPot LllTotal LllKeep
  EnumModel EnumExact EnumSpec EnumLink EvalModel EnumCall PropEnum BkzModel BkzProofs PropBkz BlockAct BkzExactModel BkzSpec LatProj.
Import ListNotations.
Local Open Scope nat_scope.

(** ** squared lengths *)
Lemma vlen_ext m mu mu' r r' x : (forall i j, i < j < m -> mu j i = mu' j i) -> (forall i, i < m -> r i = r' i) -> vlen m mu r x = vlen m mu' r' x.
Proof.
  intros H1 H2. unfold vlen, plen. apply qsum_ext. intros i Hi. cbn [Nat.leb]. rewrite (H2 i Hi).
  assert (E : gcoord m mu no_target x i = gcoord m mu' no_target x i); [|rewrite E; auto].
  unfold gcoord. f_equal. f_equal. apply qsum_ext. intros j Hj. destruct (Nat.ltb_spec i j); auto. rewrite H1 by lia. auto.
Qed.
Lemma vlen_scal m mu r x y g : (forall i, i < m -> nth i x 0%Z = (g * nth i y 0)%Z) -> vlen m mu r x = (Qcz (g * g) * vlen m mu r y)%Qc.
Proof.
  intros H. unfold vlen, plen. rewrite <- qsum_scal. apply qsum_ext. intros i Hi. cbn [Nat.leb].
  assert (E : gcoord m mu no_target x i = (Qcz g * gcoord m mu no_target y i)%Qc).
  { unfold gcoord, no_target. rewrite H, Qcz_mul by auto.
    rewrite (qsum_ext m (fun j => if i <? j then Qcz (nth j x 0%Z) * mu j i else 0)%Qc (fun j => Qcz g * (if i <? j then Qcz (nth j y 0%Z) * mu j i else 0))%Qc).
    - rewrite qsum_scal. ring.
    - intros j Hj. destruct (i <? j); [rewrite H, Qcz_mul by auto; ring|ring]. }
  rewrite E, Qcz_mul. ring.
Qed.
Lemma qsum_pos_at n f i : i < n -> (forall j, j < n -> (0 <= f j)%Qc) -> (0 < f i)%Qc -> (0 < qsum n f)%Qc.
Proof.
  induction n as [|n IH]; intros Hi Hp Hf; [lia|]. cbn [qsum].
  assert (N : (0 <= qsum n f)%Qc) by (apply qsum_nonneg; intros; apply Hp; lia).
  assert (Fn : (0 <= f n)%Qc) by (apply Hp; lia).
  destruct (Nat.eq_dec i n) as [->|Hne].
  - set (a := qsum n f) in *. set (b := f n) in *. clearbody a b. qclra.
  - specialize (IH ltac:(lia) ltac:(intros; apply Hp; lia) Hf). set (a := qsum n f) in *. set (b := f n) in *. clearbody a b. qclra.
Qed.
(** the last non-zero coefficient *)
Lemma last_nonzero m (x : nat -> Z) : (exists i, i < m /\ x i <> 0%Z) -> exists i, i < m /\ x i <> 0%Z /\ forall j, i < j < m -> x j = 0%Z.
Proof.
  induction m as [|m IH]; intros [i [Hi Hx]]; [lia|]. destruct (Z.eq_dec (x m) 0) as [E|E].
  - destruct IH as [k [K1 [K2 K3]]]. { exists i. split; auto. assert (i <> m) by congruence. lia. }
    exists k. split; [lia|]. split; auto. intros j Hj. destruct (Nat.eq_dec j m) as [->|]; auto. apply K3. lia.
  - exists m. split; [lia|]. split; auto. intros; lia.
Qed.
Lemma vlen_last m mu r x i : (forall k, k < m -> (0 < r k)%Qc) -> i < m -> nth i x 0%Z <> 0%Z -> (forall j, i < j < m -> nth j x 0%Z = 0%Z) ->
  (r i <= vlen m mu r x)%Qc.
Proof.
  intros Hr Hi Hx Hz.
  assert (G : gcoord m mu no_target x i = Qcz (nth i x 0%Z)).
  { unfold gcoord, no_target. rewrite qsum_0; [ring|]. intros j Hj. destruct (Nat.ltb_spec i j); auto. rewrite Hz by lia. rewrite Qcz_0. ring. }
  assert (S : (qsum m (fun k => if k =? i then Qcz (nth i x 0%Z) * Qcz (nth i x 0%Z) * r i else 0) <= vlen m mu r x)%Qc).
  { unfold vlen, plen. apply qsum_le. intros k Hk. cbn [Nat.leb]. destruct (Nat.eqb_spec k i) as [->|]; [rewrite G; apply Qcle_refl|].
    specialize (Hr k Hk). set (g := gcoord _ _ _ _ _) in *. set (t := r k) in *. clearbody g t. clear - Hr. qcnra. }
  rewrite (qsum_single m i) in S by (solve [auto] || (intros k Hk Hne; destruct (Nat.eqb_spec k i); [congruence|auto])). rewrite Nat.eqb_refl in S.
  eapply Qcle_trans; [|exact S]. rewrite <- Qcz_mul. assert (1 <= Qcz (nth i x 0 * nth i x 0)%Z)%Qc.
  { rewrite <- Qcz_1. apply Qcz_le. nia. }
  specialize (Hr i Hi). set (t := r i) in *. set (q := Qcz _) in *. clearbody t q. clear - H Hr. qcnra.
Qed.
Lemma nonzero_lt m x : length x = m -> (nonzero x <-> exists i, i < m /\ nth i x 0%Z <> 0%Z).
Proof.
  intros HL. split; [|intros [i [_ H]]; exists i; auto]. intros [i H]. exists i. split; auto. destruct (Nat.lt_ge_cases i m); auto.
  exfalso. apply H. apply nth_overflow. lia.
Qed.
Lemma vlen_pos m mu r x : (forall k, k < m -> (0 < r k)%Qc) -> length x = m -> nonzero x -> (0 < vlen m mu r x)%Qc.
Proof.
  intros Hr HL Hn. apply (nonzero_lt m x HL) in Hn. destruct (last_nonzero m (fun i => nth i x 0%Z) Hn) as [i [H1 [H2 H3]]].
  eapply Qclt_le_trans; [apply (Hr i H1)|apply vlen_last; auto].
Qed.
(** a shortest non-zero vector has coprime coefficients *)
Lemma shortest_primitive m mu r x : (forall k, k < m -> (0 < r k)%Qc) -> length x = m -> nonzero x ->
  (forall y, length y = m -> nonzero y -> (vlen m mu r x <= vlen m mu r y)%Qc) -> primitive m (fun i => nth i x 0%Z).
Proof.
  intros Hr HL Hn HM g Hg.
  assert (Hg0 : g <> 0%Z).
  { intros ->. apply (nonzero_lt m x HL) in Hn. destruct Hn as [i [Hi Hx]]. apply Hx. apply Z.divide_0_l. auto. }
  destruct (Z.eq_dec (Z.abs g) 1) as [E|E]; [lia|]. exfalso.
  set (y := map (fun a => a / g)%Z x).
  assert (Ly : length y = m) by (unfold y; rewrite map_length; auto).
  assert (Hy : forall i, i < m -> nth i x 0%Z = (g * nth i y 0)%Z).
  { intros i Hi. unfold y. rewrite (nth_indep (map _ x) 0%Z (0 / g)%Z) by (rewrite map_length; lia). rewrite (map_nth (fun a => a / g)%Z).
    destruct (Hg i Hi) as [q Hq]. cbn beta in Hq. rewrite Hq. rewrite Z.div_mul by auto. ring. }
  assert (Ny : nonzero y).
  { apply (nonzero_lt m y Ly). apply (nonzero_lt m x HL) in Hn. destruct Hn as [i [Hi Hx]]. exists i. split; auto. intros X. apply Hx. rewrite Hy, X by auto. ring. }
  pose proof (HM y Ly Ny) as LE. pose proof (vlen_pos m mu r y Hr Ly Ny) as PY. rewrite (vlen_scal m mu r x y g Hy) in LE.
  assert (G4 : (1 < Qcz (g * g))%Qc) by (rewrite <- Qcz_1; apply Qcz_lt; nia).
  set (v := vlen m mu r y) in *. set (q := Qcz (g * g)) in *. clearbody v q. clear - LE PY G4. qcnra.
Qed.

(** ** lists of computations *)
Lemma oseq_map {A B} (f : A -> option B) (g : A -> B) l : (forall a, In a l -> f a = Some (g a)) -> oseq (map f l) = Some (map g l).
Proof. induction l as [|a l IH]; intros H; cbn [map oseq]; auto. rewrite H by (left; auto). cbn [obind]. rewrite IH by (intros; apply H; right; auto). auto. Qed.
Lemma nth_map_seq {A} (f : nat -> A) n i d : i < n -> nth i (map f (seq 0 n)) d = f i.
Proof. intros Hi. rewrite (nth_indep _ d (f 0)) by (rewrite map_length, seq_length; auto). rewrite map_nth. rewrite seq_nth; auto. Qed.

(** ** the operations of the insertion *)
Definition not_move (o : gop) : Prop := match o with ORowAdd _ _ | ORowSub _ _ | OAddmulWe _ _ _ _ _ _ | OSwap _ _ | ONegate _ => True | _ => False end.
Lemma gpair_nm dual hi lo : forall fuel b a b' a' l, gpair fuel dual hi lo b a = Some (b', a', l) -> Forall not_move l.
Proof.
  induction fuel as [|f IH]; intros b a b' a' l H; cbn [gpair] in H; destruct (a =? 0)%Z; try discriminate; try (injection H as <- <- <-; constructor).
  destruct (a <=? b)%Z.
  - destruct (gpair f dual hi lo (b - a) a) as [[[b1 a1] l1]|] eqn:E; cbn [obind] in H; [|discriminate]. injection H as <- <- <-.
    constructor; [destruct dual; exact I|]. eapply IH; eauto.
  - destruct (gpair f dual hi lo a b) as [[[b1 a1] l1]|] eqn:E; cbn [obind] in H; [|discriminate]. injection H as <- <- <-.
    constructor; [exact I|]. eapply IH; eauto.
Qed.
Lemma gbody_nm kappa dual x k off x' l : gbody kappa dual x k off = Some (x', l) -> Forall not_move l.
Proof.
  unfold gbody. cbv zeta. destruct (_ && _); [intros H; injection H as <- <-; constructor|].
  match goal with |- context [gpair ?a ?b ?c ?d ?e ?f] => destruct (gpair a b c d e f) as [[[b1 a1] l1]|] eqn:E end; cbn [obind]; [|discriminate].
  intros H. injection H as <- <-. apply Forall_app. split; [destruct (_ <? _)%Z; repeat constructor|]. eapply gpair_nm; eauto.
Qed.
Lemma glevel_nm kappa dual : forall n x k off x' l, glevel kappa dual n x k off = Some (x', l) -> Forall not_move l.
Proof.
  induction n as [|n IH]; intros x k off x' l H; cbn [glevel] in H; destruct (k <? off); try discriminate; try (injection H as <- <-; constructor).
  destruct (gbody kappa dual x k off) as [[x1 l1]|] eqn:E; cbn [obind] in H; [|discriminate]. pose proof (gbody_nm _ _ _ _ _ _ _ E) as N1.
  destruct (k <? 2 * off); [injection H as <- <-; auto|]. destruct (glevel kappa dual n x1 (k - 2 * off) off) as [[x2 l2]|] eqn:E2; cbn [obind] in H; [|discriminate].
  injection H as <- <-. apply Forall_app. split; auto. eapply IH; eauto.
Qed.
Lemma gtree_nm kappa dual : forall n x d off x' l, gtree kappa dual n x d off = Some (x', l) -> Forall not_move l.
Proof.
  induction n as [|n IH]; intros x d off x' l H; cbn [gtree] in H; destruct (off <? d); try discriminate; try (injection H as <- <-; constructor).
  destruct (glevel kappa dual d x (d - 1) off) as [[x1 l1]|] eqn:E; cbn [obind] in H; [|discriminate].
  destruct (gtree kappa dual n x1 d (2 * off)) as [[x2 l2]|] eqn:E2; cbn [obind] in H; [|discriminate]. injection H as <- <-.
  apply Forall_app. split; [eapply glevel_nm; eauto|eapply IH; eauto].
Qed.
Lemma inb_range lo hi o : inb lo hi o -> not_move o -> op_in_range lo hi o.
Proof. destruct o; cbn; intros; try tauto; lia. Qed.

(** the list of operations of [post_fops] and that of [svp_post] *)
Definition fop_ops (o : fop qc_ops) : list gop := match o with FTrans _ _ l => l | FMove a b => [OMove a b] | _ => [] end.
Lemma post_shape kappa d sol ops : 1 <= d -> svp_post kappa false d sol = Some ops -> Forall (inb kappa (kappa + d)) ops ->
  exists l, post_fops kappa d sol = Some l /\
    ((exists a b, l = [FMove a b] /\ ops = [OMove a b]) \/
     (exists f e ops1 a b, l = [FTrans f e ops1; FMove a b] /\ ops = ops1 ++ [OMove a b] /\ f <= e <= kappa + d /\ Forall (op_in_range f e) ops1)).
Proof.
  intros Hd H HI. unfold svp_post in H. unfold post_fops. pose proof (scan_unit d sol) as CU. destruct (scan d sol) as [nz iv]. cbn [fst snd] in *.
  destruct (nz =? 1).
  - destruct iv as [v|]; [injection H as <-; eexists; split; [reflexivity|]; left; eauto|].
    destruct (kappa =? 0); [discriminate|]. injection H as <-. eexists; split; [reflexivity|]. left; eauto.
  - destruct iv as [v|].
    + injection H as <-. eexists; split; [reflexivity|]. right. do 5 eexists. split; [reflexivity|]. split; [reflexivity|].
      destruct CU as [Hv _]. split; [lia|]. apply Forall_forall. intros o Ho. apply in_flat_map in Ho as [i [_ Ho]].
      destruct (negb (sol i =? 0)%Z && negb (i =? v)); [|destruct Ho]. destruct Ho as [<-|[]]. cbn. lia.
    + unfold post_generic, generic_run in H. destruct (gtree kappa false d (fun i => Z.abs (sol i)) d 1) as [[x l]|] eqn:E; cbn [obind option_map snd] in H; [|discriminate].
      injection H as <-. cbn [obind snd]. eexists; split; [reflexivity|]. right. do 5 eexists. split; [reflexivity|].
      split; [rewrite app_assoc; reflexivity|]. split; [lia|]. rewrite app_assoc in HI. apply Forall_app in HI as [HI _].
      apply Forall_forall. intros o Ho. apply inb_range; [rewrite Forall_forall in HI; apply HI; auto|].
      apply in_app_or in Ho as [Ho|Ho]; [|pose proof (gtree_nm _ _ _ _ _ _ _ _ E) as N; rewrite Forall_forall in N; apply N; auto].
      unfold neg_ops in Ho. apply in_flat_map in Ho as [i [_ Ho]]. destruct (sol i <? 0)%Z; [|destruct Ho]. destruct Ho as [<-|[]]. exact I.
Qed.

(** ** the lattice of a list of rows *)
Lemma LB_in c B v : LB c (length B) B v <-> in_lattice c B (map v (seq 0 c)).
Proof.
  split.
  - intros [X HX]. split; [rewrite map_length, seq_length; auto|]. exists X. intros j Hj. rewrite nth_map_seq by auto. auto.
  - intros [_ [X HX]]. exists X. intros t Ht. rewrite <- HX by auto. rewrite nth_map_seq by auto. auto.
Qed.
Lemma in_LB c B v : in_lattice c B v -> LB c (length B) B (fun t => nth t v 0%Z).
Proof. intros [_ [X HX]]. exists X. auto. Qed.
Lemma LB_same c B B' : length B' = length B -> same_lattice c B B' -> forall v, LB c (length B) B' v <-> LB c (length B) B v.
Proof. intros HL HS v. rewrite <- HL at 1. rewrite !LB_in. symmetry. apply HS. Qed.
Lemma same_LB c B B' : length B' = length B -> (forall v, LB c (length B) B' v <-> LB c (length B) B v) -> same_lattice c B B'.
Proof.
  intros HL H v. assert (E : forall C, in_lattice c C v <-> length v = c /\ in_lattice c C (map (fun t => nth t v 0%Z) (seq 0 c))).
  { intros C. unfold in_lattice. split.
    - intros [A [X HX]]. split; auto. split; [rewrite map_length, seq_length; auto|]. exists X. intros j Hj. rewrite nth_map_seq by auto. auto.
    - intros [A [_ [X HX]]]. split; auto. exists X. intros j Hj. rewrite <- HX by auto. rewrite nth_map_seq by auto. auto. }
  rewrite (E B), (E B'), <- !LB_in, HL. rewrite H. tauto.
Qed.

Section S.
Variable rnd : Qc -> Z -> Qc.
Variable si ze : Qc -> Z -> Z * nat.
Variable expo : Qc -> Z.
Notation lo := (lq_ops rnd si ze expo).
Notation fo := qc_ops.
Variable P : lpar lo.
Notation en_e := (p_e P).
Notation FI := (FInv fo (p_e P)).
Notation lst := (lst lo).
Notation XP := (XP rnd si ze expo P).
Notation RR z := (qR (gc z) (gb z)).
Notation MM z := (qM (gc z) (gb z)).
Notation vc s j := (nth j (fvc s) 0).
Notation calm := (calm rnd si ze expo P).

Lemma r_exp_q z s i : FI z s -> XP z -> i < nkr z -> i < vc s i ->
  exists r e, get_r_exp fo en_e (z, s) i i = Some (r, e) /\ (r * pow2 e)%Qc = RR z i i.
Proof.
  intros HF HX Hi Hv. destruct (coeff_reference fo en_e (qc_laws _) z s i i HF HX) as [X _]; [split; auto|].
  pose proof (get_r_q rnd si ze expo P z s i i HF HX Hi (le_n i) Hv) as Y. unfold get_r in Y. rewrite X in Y. cbn [obind fst snd] in Y. injection Y as Y.
  eexists _, _. split; [exact X|]. rewrite <- Y. destruct (p_e P); [reflexivity|]. change (pow2 0) with 1%Qc. change (F fo) with Qc. ring.
Qed.
Lemma r_val_q (st : lst) i : FI (lz st) (ls st) -> XP (lz st) -> i < nkr (lz st) -> i < vc (ls st) i -> r_val rnd si ze expo P st i = Some (RR (lz st) i i).
Proof.
  intros HF HX Hi Hv. unfold r_val. destruct (r_exp_q (lz st) (ls st) i HF HX Hi Hv) as [r [e [E1 E2]]].
  match goal with |- context [obind ?A _] => replace A with (Some (r, e)) by (symmetry; exact E1) end. cbn [obind fst snd]. f_equal. exact E2.
Qed.

(** what the enumeration of a block returns *)
Lemma enum_block_q efuel ne rec (st : lst) kappa m R res : calm st -> 0 < m -> kappa + m <= nkr (lz st) -> (forall j, j < kappa + m -> j < vc (ls st) j) ->
  (forall j, j < kappa + m -> (0 < RR (lz st) j j)%Qc) -> (0 <= R)%Qc ->
  enum_block rnd si ze expo P efuel ne rec st kappa m R = Some res ->
  match res with
  | None => forall y, length y = m -> nonzero y -> (R < vlen m (bmu (gc (lz st)) (gb (lz st)) kappa) (br (gc (lz st)) (gb (lz st)) kappa) y)%Qc
  | Some x => length x = m /\ nonzero x /\ (vlen m (bmu (gc (lz st)) (gb (lz st)) kappa) (br (gc (lz st)) (gb (lz st)) kappa) x <= R)%Qc /\
      forall y, length y = m -> nonzero y ->
        (vlen m (bmu (gc (lz st)) (gb (lz st)) kappa) (br (gc (lz st)) (gb (lz st)) kappa) x <= vlen m (bmu (gc (lz st)) (gb (lz st)) kappa) (br (gc (lz st)) (gb (lz st)) kappa) y)%Qc
  end.
Proof.
  intros [HF HX _ _] Hm HK HV HP HR E. unfold enum_block in E.
  rewrite (oseq_map _ (fun i => RR (lz st) (kappa + i) (kappa + i))) in E.
  2:{ intros i Hi. apply in_seq in Hi. apply r_val_q; auto; try lia. apply HV. lia. }
  cbn [obind] in E.
  rewrite (oseq_map _ (fun j => map (fun i => MM (lz st) (kappa + j) (kappa + i)) (seq 0 j))) in E.
  2:{ intros j Hj. apply in_seq in Hj. apply oseq_map. intros i Hi. apply in_seq in Hi. apply get_mu_q; auto; try lia. apply Nat.lt_trans with (kappa + j); [lia|]. apply HV; lia. }
  cbn [obind] in E. set (r := map (fun i => RR (lz st) (kappa + i) (kappa + i)) (seq 0 m)) in *.
  set (mu := map (fun j => map (fun i => MM (lz st) (kappa + j) (kappa + i)) (seq 0 j)) (seq 0 m)) in *.
  set (muf := fun j i => nth i (nth j mu []) 0%Qc) in *. set (rf := fun i => nth i r 0%Qc) in *.
  assert (Er : forall i, i < m -> rf i = br (gc (lz st)) (gb (lz st)) kappa i).
  { intros i Hi. unfold rf, r. rewrite nth_map_seq by auto. reflexivity. }
  assert (Em : forall i j, i < j < m -> muf j i = bmu (gc (lz st)) (gb (lz st)) kappa j i).
  { intros i j Hij. unfold muf, mu. rewrite (nth_map_seq (fun j => map (fun i => MM (lz st) (kappa + j) (kappa + i)) (seq 0 j))) by lia. rewrite nth_map_seq by lia. reflexivity. }
  assert (EV : forall y, vlen m muf rf y = vlen m (bmu (gc (lz st)) (gb (lz st)) kappa) (br (gc (lz st)) (gb (lz st)) kappa) y) by (intros y; apply vlen_ext; auto).
  assert (Hr : forall k, k < m -> (0 < rf k)%Qc) by (intros k Hk; rewrite Er by auto; apply HP; lia).
  match type of E with obind ?A _ = _ => change A with (enum_run rec efuel (ne r) accept_all BestN 1 (enum_input m muf rf None [] false None R (ne r))) in E end.
  destruct (enum_run rec efuel (ne r) accept_all BestN 1 (enum_input m muf rf None [] false None R (ne r))) as [s|] eqn:ES; cbn [obind] in E; [|discriminate].
  injection E as <-. destruct (enum_shortest m muf rf false R (ne r) rec efuel s Hm Hr HR ES) as [S1 S2].
  destruct (enum_best_n m muf rf false R (ne r) 1 Hm Hr HR ltac:(lia) rec efuel s ES) as [A1 [A2 [A3 A4]]].
  destruct (kept s) as [|[l x] t] eqn:EK; change (ev_sols (g_ev (s_g s))) with (kept s) in *; try rewrite EK in *.
  - intros y Ly Ny. rewrite <- EV. apply Qcnot_le_lt. intros LE. destruct S1 as [x [K _]]; [eauto|discriminate K].
  - cbn [snd]. destruct (A2 l x ltac:(left; auto)) as [B1 [B2 [B3 [B4 _]]]]. split; auto. split; auto. rewrite <- EV. split; auto.
    intros y Ly Ny. rewrite <- EV. destruct S1 as [x' [K [_ [_ K2]]]]; [eauto|]. injection K as K0 K1 K3. subst x'. apply K2; auto.
Qed.

Lemma frun2 zs o1 o2 zs1 zs2 : fstep fo en_e zs o1 = Some zs1 -> fstep fo en_e zs1 o2 = Some zs2 -> frun fo en_e zs [o1; o2] = Some zs2.
Proof. intros H1 H2. cbn [frun]. rewrite H1. cbn [obind]. rewrite H2. reflexivity. Qed.
(** the insertion *)
Lemma svp_insert_q (st : lst) kappa d sol : calm st -> en_i (lz st) = false -> kappa + d <= nkr (lz st) -> primitive d (fun i => nth i sol 0%Z) ->
  exists st', svp_insert rnd si ze expo P st kappa d sol = Some st' /\ calm st' /\ flags_eq (lz st) (lz st') /\ gd (lz st') = gd (lz st) /\
    (forall a, a < gd (lz st) -> a < kappa \/ kappa + d <= a -> nth a (gb (lz st')) [] = nth a (gb (lz st)) []) /\
    (forall v, LB (gc (lz st)) (gd (lz st)) (gb (lz st')) v <-> LB (gc (lz st)) (gd (lz st)) (gb (lz st)) v) /\
    (forall a, a < d -> exists X : nat -> Z, forall t, t < gc (lz st) -> ent (gb (lz st)) (kappa + a) t = zsum d (fun b => X b * ent (gb (lz st')) (kappa + b) t)%Z) /\
    (forall a, a < d -> exists X : nat -> Z, forall t, t < gc (lz st) -> ent (gb (lz st')) (kappa + a) t = zsum d (fun b => X b * ent (gb (lz st)) (kappa + b) t)%Z) /\
    exists s, pm1 s /\ forall k, (s * ent (gb (lz st')) kappa k = block_comb (gb (lz st)) kappa d (fun i => nth i sol 0%Z) k)%Z.
Proof.
  intros [HF HX HL HG] HEI HK HP. pose proof (F_inv _ _ _ _ HF) as HI. pose proof (I_known _ HI) as IK. pose proof (primitive_pos _ _ HP) as Hd.
  destruct (post_act kappa false d _ HP) as [ops [E [F1 [_ [_ [s [Hs [F3 _]]]]]]]]. specialize (F3 eq_refl).
  destruct (post_shape kappa d _ ops Hd E F1) as [l [EL SH]].
  destruct (block_run kappa (kappa + d) ops F1 (lz st) HI HL HK (fun _ => HEI)) as [LG [z' [R [I' [N' [L' [Fl' [G' A']]]]]]]].
  destruct (history_lattice ops (lz st) HI LG) as [z2 [R2 [_ [_ [C2 SL]]]]]. assert (z2 = z') by congruence. subst z2.
  assert (HRUN : exists s', frun fo en_e (lz st, ls st) l = Some (z', s') /\ FI z' s').
  { destruct SH as [[a [b [-> ->]]]|[f [e [ops1 [a [b [-> [-> [Hfe HR]]]]]]]]].
    - cbn [legal_run] in LG. destruct LG as [LG _]. destruct (fmove_ok fo en_e (qc_laws _) (lz st) (ls st) a b HF LG) as [z1 [s1 [E1 [H1 M1]]]].
      cbn [frun fstep]. rewrite E1. cbn [obind]. exists s1. cbn [grun fold_left gstep obind] in R. 
      assert (z1 = z'); [|subst; auto]. cbn [grun gstep] in R. rewrite M1 in R. cbn [obind grun] in R. congruence.
    - assert (LG1 : legal_run (lz st) ops1 /\ forall z1, grun (lz st) ops1 = Some z1 -> legal_run z1 [OMove a b]).
      { clear - LG. revert LG. generalize (lz st). induction ops1 as [|o ops1 IH]; intros z LG; cbn [app legal_run] in *.
        - split; auto. cbn [grun]. intros z1 X. injection X as <-. auto.
        - destruct LG as [LG1 LG2]. rewrite grun_cons. destruct (gstep z o) as [z0|]; [destruct (IH z0 LG2) as [U V]; split; auto|split; auto; discriminate]. }
      destruct LG1 as [LG1 LG2].
      assert (FL : flegal fo (lz st, ls st) (FTrans f e ops1)) by (split; [lia|]; split; auto).
      destruct (fstep_ok fo en_e (qc_laws _) (lz st) (ls st) _ HF FL) as [z1 [s1 [E1 [H1 _]]]].
      assert (E1' := E1). cbn [fstep] in E1.
      destruct (grun (lz st) ops1) as [z1'|] eqn:EG; cbn [obind] in E1; [|discriminate]. destruct (row_op_end fo en_e z1' (ls st) f e) as [s1'|]; cbn [obind] in E1; [|discriminate].
      injection E1 as -> ->. destruct (LG2 z1 eq_refl) as [LM _].
      destruct (fmove_ok fo en_e (qc_laws _) z1 s1 a b H1 LM) as [z2 [s2 [E2 [H2 M2]]]].
      exists s2. assert (z2 = z'); [|subst z2; split; [apply (frun2 (lz st, ls st) (FTrans f e ops1) (FMove a b) (z1, s1) (z', s2) E1' E2)|auto]].
      assert (X : grun (lz st) (ops1 ++ [OMove a b]) = obind (grun (lz st) ops1) (fun z => grun z [OMove a b])).
      { clear. generalize (lz st). induction ops1 as [|o ops1 IH]; intros z; cbn [app]; [reflexivity|]. rewrite !grun_cons. destruct (gstep z o); cbn [obind]; auto. }
      rewrite X, EG in R. cbn [obind] in R. rewrite grun_cons in R. cbn [gstep] in R. rewrite M2 in R. cbn in R. congruence. }
  destruct HRUN as [s' [ER HF']]. exists (set_zs st z' s'). unfold svp_insert. rewrite EL. cbn [obind].
  match goal with |- context [obind ?A _] => replace A with (Some (z', s')) by (symmetry; exact ER) end. cbn [obind fst snd]. split; auto.
  cbn [lz ls set_zs]. destruct Fl' as [Fa [Fb [Fc [Fd Fe]]]].
  split. { constructor; cbn [lz ls set_zs]; auto; [intros X; rewrite Fb; auto|congruence]. }
  split; [repeat split; auto|]. split; auto. split.
  { intros a Ha Ho. destruct (I_b _ HI) as [B1 B2]. destruct (I_b _ I') as [B3 B4].
    apply (nth_ext _ _ 0%Z 0%Z); [rewrite B4, B2 by lia; auto|]. intros k _. change (ent (gb z') a k = ent (gb (lz st)) a k).
    rewrite A' by auto. rewrite (act_run_out kappa (kappa + d)); auto. }
  split. { unfold gd. apply LB_same; [unfold gd in G'; auto|auto]. }
  split. { intros a Ha. destruct (act_run_inv kappa d ops F1 a Ha) as [X HX']. exists X. intros t Ht. rewrite (HX' (fun a => ent (gb (lz st)) a t)).
    apply zsum_ext. intros b Hb. f_equal. symmetry. apply A'. lia. }
  split. { intros a Ha. destruct (act_fwd kappa d ops F1 a Ha) as [X HX']. exists X. intros t Ht. rewrite A' by lia. apply HX'. }
  exists s. split; auto. intros k. rewrite A' by lia. rewrite F3. reflexivity.
Qed.

(** ** one call of svp_reduction *)
Notation half := (Q2Qc (1 # 2)).
Hypothesis HX : exact_rounding rnd si ze.
Hypothesis Heta : (half <= p_eta P)%Qc.
Hypothesis Hthr : p_thr P = (if p_siegel P then p_delta P - p_eta P * p_eta P else p_delta P)%Qc.
Hypothesis Hdelta : (p_eta P * p_eta P < p_delta P)%Qc.
Hypothesis Hearly : p_early P = false.
Variables (fuel efuel : nat) (max_iter : list (list Z) -> nat) (ne : list Qc -> Z) (rec : bool) (delta : Qc).
Hypothesis Hfuel : 2 <= fuel.
Hypothesis Hd0 : (0 <= delta)%Qc.
Variables (c D : nat).

(** what size reduction of a row keeps *)
Definition stable (Q : list (list Z) -> Prop) : Prop := forall B B' k srs, Q B -> 0 < k < length B -> length B' = length B ->
  (forall j, j < k -> (0 < qR c B j j)%Qc) -> row_changed c B B' k ->
  ((forall j, srs <= j < k -> (qabs (qM c B k j) <= p_eta P)%Qc) -> B' = B) -> Q B'.
(** what an iteration of LLL keeps *)
Definition lstable (kend : nat) (Q : list (list Z) -> Prop) : Prop := forall B B' k k', Q B -> 0 < k < kend -> kend <= length B -> all_pos c B kend ->
  iter_rel rnd si ze expo P c B B' k k' 0 -> Q B'.
Definition reds (B B' : list (list Z)) : Prop := forall Q, stable Q -> Q B -> Q B'.

(** a state on D independent rows of c columns *)
Record ready (st : lst) : Prop := { R_c : calm st; R_gc : gc (lz st) = c; R_gd : gd (lz st) = D; R_i : en_i (lz st) = false; R_p : all_pos c (gb (lz st)) D }.
(** the first n rows have valid coefficients *)
Definition valid_to (st : lst) (n : nat) : Prop := n <= nkr (lz st) /\ forall j, j < n -> j < vc (ls st) j.
Definition size_reduced_to (B : list (list Z)) (n : nat) : Prop := forall i j, i < n -> j < i -> (qabs (qM c B i j) <= p_eta P)%Qc.

Lemma all_pos_stable : stable (fun B => length B = D /\ all_pos c B D).
Proof. intros B B' k srs [HL HA] Hk HL' HP HR _. split; [congruence|]. eapply row_changed_pos; eauto. lia. Qed.

Lemma size_red_q (st : lst) k cnt srs : ready st -> srs <= k -> k + cnt <= D -> valid_to st k ->
  exists st', size_reduction lo P fuel st k (k + cnt) srs = Some (st', OTrue) /\ ready st' /\ reds (gb (lz st)) (gb (lz st')) /\ valid_to st' (k + cnt) /\
    (forall a, a < D -> ~ (k <= a < k + cnt) -> nth a (gb (lz st')) [] = nth a (gb (lz st)) []) /\
    (forall i j, k <= i < k + cnt -> srs <= j < i -> (qabs (qM c (gb (lz st')) i j) <= p_eta P)%Qc).
Proof.
  intros [H1 H2 H3 H4 H5] Hs Hk [V1 V2]. unfold size_reduction. replace (k + cnt - k) with cnt by lia.
  destruct (size_red_k rnd si ze expo P HX Heta c (fun B => reds (gb (lz st)) B) ltac:(intros B B' k0 srs0 HJ A1 A2 A3 A4 A5 Q HQ HB; exact (HQ B B' k0 srs0 (HJ Q HQ HB) A1 A2 A3 A4 A5))
    fuel srs Hfuel cnt st k H1 H2 Hs V1 ltac:(lia)) as [st' [E [C1 [Fl [G [J [N1 [N2 [V [U M]]]]]]]]]]; auto.
  { intros j Hj. apply H5. lia. }
  { intros Q HQ HB; exact HB. }
  exists st'. split; auto. destruct Fl as [Fa [Fb [Fc [Fd Fe]]]]. destruct (J _ all_pos_stable) as [L1 L2]; [split; auto|].
  split; [constructor; auto; congruence|]. split; auto. split; [split; auto|]. split; [intros a Ha; apply U; lia|].
  rewrite <- H2, <- Fa. exact M.
Qed.

(** the effect of the insertion of the vector with coefficients x *)
Definition put (B B' : list (list Z)) (kappa m : nat) (x : list Z) : Prop :=
  length B' = length B /\
  (forall a, a < D -> a < kappa \/ kappa + m <= a -> nth a B' [] = nth a B []) /\
  (forall v, LB c D B' v <-> LB c D B v) /\
  (forall a, a < m -> exists X : nat -> Z, forall t, t < c -> ent B (kappa + a) t = zsum m (fun b => X b * ent B' (kappa + b) t)%Z) /\
  (forall a, a < m -> exists X : nat -> Z, forall t, t < c -> ent B' (kappa + a) t = zsum m (fun b => X b * ent B (kappa + b) t)%Z) /\
  exists s, pm1 s /\ forall k, (s * ent B' kappa k = block_comb B kappa m (fun i => nth i x 0%Z) k)%Z.
Definition bvlen (B : list (list Z)) (kappa m : nat) (x : list Z) : Qc := vlen m (bmu c B kappa) (br c B kappa) x.

(** the length of the inserted vector *)
Lemma put_R B B' kappa m x : all_pos c B D -> 0 < m -> kappa + m <= D -> put B B' kappa m x -> qR c B' kappa kappa = bvlen B kappa m x.
Proof.
  intros HA Hm HD [H1 [H2 [H3 [_ [_ [s [Hs H4]]]]]]].
  rewrite <- qproj_diag, <- pl_row by auto. rewrite (pl_same c B B') by (intros a Ha; apply H2; lia).
  unfold bvlen. set (X := fun a : nat => (s * (if (a <? kappa)%nat then 0 else nth (a - kappa)%nat x 0))%Z).
  rewrite (pl_vlen c B kappa m X (zq (nth kappa B' [])) (map (fun a => s * a)%Z x)).
  - rewrite (vlen_scal m _ _ (map (fun a => s * a)%Z x) x s).
    + replace (s * s)%Z with 1%Z by (destruct Hs; subst; auto). rewrite Qcz_1. ring.
    + intros i Hi. destruct (Nat.lt_ge_cases i (length x)) as [L|L].
      * rewrite (nth_indep _ 0%Z (s * 0)%Z) by (rewrite map_length; auto). rewrite (map_nth (fun a => s * a)%Z). auto.
      * rewrite !nth_overflow by (rewrite ?map_length; lia). ring.
  - intros j Hj. apply HA. lia.
  - intros t Ht. unfold zq. change (nth t (nth kappa B' []) 0%Z) with (ent B' kappa t).
    replace (ent B' kappa t) with (s * block_comb B kappa m (fun i => nth i x 0%Z) t)%Z by (rewrite <- H4; destruct Hs; subst; ring).
    unfold block_comb. rewrite <- zsum_scal, Qcz_zsum. rewrite qsum_split, (qsum_0 kappa).
    + rewrite Qcplus_0_l. apply qsum_ext. intros i Hi. unfold X. destruct (Nat.ltb_spec (kappa + i) kappa); [lia|]. replace (kappa + i - kappa) with i by lia.
      rewrite <- Qcz_mul. f_equal. unfold ent. ring.
    + intros a Ha. unfold X. destruct (Nat.ltb_spec a kappa); [|lia]. rewrite Z.mul_0_r, Qcz_0. ring.
  - intros i Hi. unfold X. destruct (Nat.ltb_spec (kappa + i) kappa); [lia|]. replace (kappa + i - kappa) with i by lia.
    destruct (Nat.lt_ge_cases i (length x)) as [L|L].
    + rewrite (nth_indep _ 0%Z (s * 0)%Z) by (rewrite map_length; auto). rewrite (map_nth (fun a => s * a)%Z). auto.
    + rewrite !nth_overflow by (rewrite ?map_length; lia). ring.
Qed.

Lemma svp_gen2 (J : list (list Z) -> Prop) (st st' : lst) kappa m b : (forall B, J B -> all_pos c B D) -> stable J -> lstable (kappa + m) J ->
  ready st -> 0 < m -> kappa + m <= D -> J (gb (lz st)) ->
  svp_reduction rnd si ze expo P fuel efuel max_iter ne rec delta st kappa m = Some (st', BRet b) ->
  exists B0 B1 B2, J B0 /\ J B1 /\ length B1 = D /\
    (B2 = B1 /\ (forall y, length y = m -> nonzero y -> (delta * qR c B1 kappa kappa < bvlen B1 kappa m y)%Qc) \/
     exists x, length x = m /\ nonzero x /\ (bvlen B1 kappa m x <= delta * qR c B1 kappa kappa)%Qc /\
       (forall y, length y = m -> nonzero y -> (bvlen B1 kappa m x <= bvlen B1 kappa m y)%Qc) /\ put B1 B2 kappa m x) /\
    reds B2 (gb (lz st')) /\ length B2 = D /\ all_pos c B2 D /\ ready st' /\ valid_to st' (S kappa) /\ size_reduced_to (gb (lz st')) (S kappa) /\
    (b = true <-> (qR c B0 kappa kappa <= qR c (gb (lz st')) kappa kappa)%Qc) /\
    reds (gb (lz st)) B0 /\ size_reduced_to B1 (kappa + m) /\ (forall i, 0 < i < kappa + m -> (p_thr P * qR c B1 (i - 1) (i - 1) <= qproj c B1 i (tidx lo P i))%Qc).
Proof.
  intros HJp HJs HJl HR Hm HD HJ E. unfold svp_reduction in E.
  destruct (size_red_q st 0 (S kappa) 0 HR ltac:(lia) ltac:(lia) ltac:(split; [lia|intros; lia])) as [s0 [E0 [R0 [S0 [V0 _]]]]].
  rewrite Nat.add_0_l in E0, V0. rewrite E0 in E. cbn [obind fst snd] in E. clear E0.
  pose proof (S0 J HJs HJ) as J0. pose proof R0 as [C0 G0 D0 I0 P0].
  destruct (r_exp_q (lz s0) (ls s0) kappa) as [ro [eo [EO RO]]]; [apply C0|apply C0|destruct V0; lia|destruct V0 as [_ V0]; apply V0; lia|].
  match type of E with obind ?A _ = _ => replace A with (Some (ro, eo)) in E by (symmetry; exact EO) end. cbn [obind fst snd] in E. clear EO.
  destruct (lll lo P fuel max_iter s0 0 0 (kappa + m) 0) as [[s1 o1]|] eqn:E1; cbn [obind fst snd] in E; [|discriminate].
  destruct o1; try discriminate.
  destruct (lll_k rnd si ze expo P HX Heta Hthr Hdelta c J (kappa + m) HJl fuel max_iter s0 s1 Hfuel Hearly C0 G0 ltac:(lia) ltac:(intros j Hj; apply P0; lia) J0 E1)
    as [C1 [F1 [D1 [J1 [P1 [L1 [L2 [L3 L4]]]]]]]]. clear E1.
  destruct F1 as [Fa [Fb [Fc [Fd Fe]]]]. assert (G1 : gc (lz s1) = c) by congruence. pose proof (HJp _ J1) as A1.
  rewrite (r_val_q s1 kappa) in E by (try apply C1; try lia; apply L1; lia). cbn [obind] in E.
  destruct (enum_block rnd si ze expo P efuel ne rec s1 kappa m (RR (lz s1) kappa kappa * delta)%Qc) as [res|] eqn:EB; cbn [obind] in E; [|discriminate].
  assert (RP : (0 < RR (lz s1) kappa kappa)%Qc) by (rewrite G1; apply A1; lia).
  assert (RN : (0 <= RR (lz s1) kappa kappa * delta)%Qc).
  { set (r := RR (lz s1) kappa kappa) in *. clearbody r. clear - RP Hd0. qcnra. }
  pose proof (enum_block_q efuel ne rec s1 kappa m _ res C1 Hm L2 L1 ltac:(intros j Hj; rewrite G1; apply A1; lia) RN EB) as EN. clear EB. rewrite G1 in EN.
  assert (HS : exists s2, match res with Some x => svp_insert rnd si ze expo P s1 kappa m x | None => Some s1 end = Some s2 /\ ready s2 /\
    (gb (lz s2) = gb (lz s1) /\ (forall y, length y = m -> nonzero y -> (delta * qR c (gb (lz s1)) kappa kappa < bvlen (gb (lz s1)) kappa m y)%Qc) \/
     exists x, length x = m /\ nonzero x /\ (bvlen (gb (lz s1)) kappa m x <= delta * qR c (gb (lz s1)) kappa kappa)%Qc /\
       (forall y, length y = m -> nonzero y -> (bvlen (gb (lz s1)) kappa m x <= bvlen (gb (lz s1)) kappa m y)%Qc) /\ put (gb (lz s1)) (gb (lz s2)) kappa m x)).
  { destruct res as [x|].
    - destruct EN as [N1 [N2 [N3 N4]]].
      assert (PR : primitive m (fun i => nth i x 0%Z)).
      { eapply shortest_primitive; eauto. intros k Hk. unfold br. apply A1. lia. }
      destruct (svp_insert_q s1 kappa m x C1 ltac:(congruence) L2 PR) as [s2 [X1 [X2 [X3 [X4 [X5 [X6 X7]]]]]]].
      exists s2. split; [exact X1|]. destruct X3 as [Ya [Yb [Yc [Yd Ye]]]]. rewrite G1 in X6, X7. rewrite D1, D0 in X5, X6.
      split; [constructor; auto; try congruence|].
      { eapply (LB_pos c D (gb (lz s1))); eauto. }
      right. exists x. split; auto. split; auto. split; [unfold bvlen; rewrite Qcmult_comm; auto|]. split; auto.
      split; [unfold gd in X4; auto|]. split; auto.
    - exists s1. split; auto. split; [constructor; auto; congruence|]. left. split; auto. intros y Ly Ny. rewrite Qcmult_comm. apply EN; auto. }
  destruct HS as [s2 [E2 [R2 H2]]].
  match type of E with obind ?A _ = _ => replace A with (Some s2) in E by (symmetry; exact E2) end. cbn [obind] in E. clear E2.
  destruct (size_red_q s2 0 (S kappa) 0 R2 ltac:(lia) ltac:(lia) ltac:(split; [lia|intros; lia])) as [s3 [E3 [R3 [S3 [V3 [_ M3]]]]]].
  rewrite Nat.add_0_l in E3, V3. rewrite E3 in E. cbn [obind fst snd] in E. clear E3. pose proof R3 as [C3 G3 D3 I3 P3].
  destruct (r_exp_q (lz s3) (ls s3) kappa) as [rn [en [EN3 RN3]]]; [apply C3|apply C3|destruct V3; lia|destruct V3 as [_ V3]; apply V3; lia|].
  match type of E with obind ?A _ = _ => replace A with (Some (rn, en)) in E by (symmetry; exact EN3) end. cbn [obind fst snd] in E. clear EN3.
  injection E as <- <-.
  exists (gb (lz s0)), (gb (lz s1)), (gb (lz s2)). split; auto. split; auto. split; [unfold gd in *; congruence|]. split; auto. split; auto.
  split; [unfold gd in *; apply (R_gd _ R2)|]. split; [apply (R_p _ R2)|]. split; auto. split; auto. split; [intros i j Hi Hj; apply M3; lia|].
  split; [|split; [exact S0|]; split; [intros i j Hi Hj; rewrite <- G1; apply L3; lia|intros i Hi; rewrite <- G1; apply L4; auto]].
  rewrite G0 in RO. rewrite G3 in RN3. rewrite <- RO, <- RN3. rewrite negb_true_iff. clear.
  assert (PE : pow2 (en - eo) = (pow2 en * pow2 (- eo))%Qc) by (rewrite <- pow2_add; f_equal; lia).
  assert (PO : (pow2 eo * pow2 (- eo) = 1)%Qc) by apply pow2_inv. pose proof (EnumCall.pow2_pos eo) as Q1. pose proof (EnumCall.pow2_pos (- eo)) as Q2.
  set (u := pow2 en) in *. set (w := pow2 (- eo)) in *. set (t := pow2 eo) in *. set (q := pow2 (en - eo)) in *. clearbody u w t q. change (F fo) with Qc in *.
  assert (X : (rn * u)%Qc = (rn * q * t)%Qc) by (rewrite PE; transitivity (rn * u * (t * w))%Qc; [rewrite PO; ring|ring]).
  rewrite X. clear X PE. generalize dependent (rn * q)%Qc. intros a. split; intros H.
  - assert (L : (ro <= a)%Qc) by (apply Qcnot_lt_le; intros L; apply qltb_lt in L; congruence). clear - L Q1. qcnra.
  - destruct (qltb a ro) eqn:EL; auto. apply qltb_lt in EL. exfalso. clear - EL Q1 H. qcnra.
Qed.
Lemma svp_gen (J : list (list Z) -> Prop) (st st' : lst) kappa m b : (forall B, J B -> all_pos c B D) -> stable J -> lstable (kappa + m) J ->
  ready st -> 0 < m -> kappa + m <= D -> J (gb (lz st)) ->
  svp_reduction rnd si ze expo P fuel efuel max_iter ne rec delta st kappa m = Some (st', BRet b) ->
  exists B0 B1 B2, J B0 /\ J B1 /\ length B1 = D /\
    (B2 = B1 /\ (forall y, length y = m -> nonzero y -> (delta * qR c B1 kappa kappa < bvlen B1 kappa m y)%Qc) \/
     exists x, length x = m /\ nonzero x /\ (bvlen B1 kappa m x <= delta * qR c B1 kappa kappa)%Qc /\
       (forall y, length y = m -> nonzero y -> (bvlen B1 kappa m x <= bvlen B1 kappa m y)%Qc) /\ put B1 B2 kappa m x) /\
    reds B2 (gb (lz st')) /\ length B2 = D /\ all_pos c B2 D /\ ready st' /\ valid_to st' (S kappa) /\ size_reduced_to (gb (lz st')) (S kappa) /\
    (b = true <-> (qR c B0 kappa kappa <= qR c (gb (lz st')) kappa kappa)%Qc).
Proof.
  intros HJp HJs HJl HR Hm HD HJ E.
  destruct (svp_gen2 J st st' kappa m b HJp HJs HJl HR Hm HD HJ E) as [B0 [B1 [B2 [A1 [A2 [A3 [A4 [A5 [A6 [A7 [A8 [A9 [A10 [A11 _]]]]]]]]]]]]]].
  exists B0, B1, B2. auto 12.
Qed.
End S.
