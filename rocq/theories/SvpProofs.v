(** shortest_vector in exact arithmetic: the useful index, the initial bound, both evaluators. *)
From Coq Require Import List ZArith QArith Qcanon Arith Bool Lia Permutation Sorted.
From Verif Require Import Util QcUtil LatticeSpec LllSpec EnumModel EnumExact EnumTree EnumSpec EnumLink EnumNorm EvalModel EvalProofs EnumCall
  GsoQ PropEnum SvpModel.
Import ListNotations.
Local Open Scope Qc_scope.

(** ** last_useful_index *)
Lemma last_useful_spec r n : (1 <= last_useful r n <= S n)%nat /\
  forall j, (last_useful r n <= j <= n)%nat -> Qcz 2 * r 0%nat < r j.
Proof.
  induction n as [|n [IH1 IH2]]; cbn [last_useful]; [split; [lia|intros; lia]|].
  destruct (eleb (r (S n)) (Qcz 2 * r 0%nat)) eqn:E.
  - split; [lia|intros; lia].
  - split; [lia|]. intros j Hj. destruct (Nat.eq_dec j (S n)) as [->|]; [now apply eleb_gt|]. apply IH2. lia.
Qed.
Lemma lui_spec d r : (0 < d)%nat -> (1 <= last_useful_index d r <= d)%nat /\
  forall j, (last_useful_index d r <= j < d)%nat -> Qcz 2 * r 0%nat < r j.
Proof.
  intros Hd. destruct (last_useful_spec r (d - 1)) as [A B]. unfold last_useful_index. split; [lia|]. intros j Hj. apply B. lia.
Qed.

(** ** get_basis_min *)
Lemma min_fold (sq : nat -> Z) l : forall m, let v := fold_left (fun m i => if (sq i <? m)%Z then sq i else m) l m in
  (v <= m)%Z /\ (forall i, In i l -> (v <= sq i)%Z) /\ (v = m \/ exists i, In i l /\ v = sq i).
Proof.
  induction l as [|a l IH]; cbn [fold_left]; intros m; [cbn; split; [lia|split; [intros i []|auto]]|].
  destruct (Z.ltb_spec (sq a) m) as [L|L].
  - specialize (IH (sq a)). cbn zeta in *. destruct IH as (A & B & C). split; [lia|]. split.
    + intros i [<-|Hi]; auto.
    + right. destruct C as [C|(i & Hi & C)]; [exists a; split; [now left|auto]|exists i; split; [now right|auto]].
  - specialize (IH m). cbn zeta in *. destruct IH as (A & B & C). split; [lia|]. split.
    + intros i [<-|Hi]; [lia|auto].
    + destruct C as [C|(i & Hi & C)]; [now left|right; exists i; split; [now right|auto]].
Qed.
Lemma gbm_spec sq n : (0 < n)%nat -> let v := get_basis_min sq 0 n in
  (forall i, (i < n)%nat -> (v <= sq i)%Z) /\ exists i, (i < n)%nat /\ v = sq i.
Proof.
  intros Hn. unfold get_basis_min. destruct (min_fold sq (seq 1 (n - 1)) (sq 0%nat)) as (A & B & C). cbn zeta. split.
  - intros i Hi. destruct i; [exact A|]. apply B. apply in_seq. lia.
  - destruct C as [C|(i & Hi & C)]; [exists 0%nat; split; [lia|exact C]|]. apply in_seq in Hi. exists i. split; [lia|exact C].
Qed.

(** ** short vectors have no coordinate beyond the useful index *)
Lemma nth_tail_gcoord d mu y k : (forall j, (k < j)%nat -> nth j y 0%Z = 0%Z) -> gcoord d mu no_target y k = Qcz (nth k y 0%Z).
Proof.
  intros H. unfold gcoord, no_target. rewrite qsum_0; [ring|]. intros j Hj. destruct (Nat.ltb_spec k j); auto. rewrite H by lia. rewrite Qcz_0. ring.
Qed.
Lemma Qcz_sq_ge1 z : z <> 0%Z -> 1 <= Qcz z * Qcz z.
Proof. intros H. rewrite <- Qcz_mul, <- Qcz_1. apply Qcz_le. nia. Qed.

Lemma tail_zero d mu r y d' R : (forall i, (i < d)%nat -> 0 < r i) -> (length y <= d)%nat ->
  (forall j, (d' <= j < d)%nat -> R < r j) -> vlen d mu r y <= R -> forall j, (d' <= j)%nat -> nth j y 0%Z = 0%Z.
Proof.
  intros Hr Ly Hd' HV.
  assert (M : forall n k, (k + n = d)%nat -> (d' <= k)%nat -> forall j, (k <= j)%nat -> nth j y 0%Z = 0%Z).
  { induction n; intros k Hk Hk' j Hj; [apply nth_overflow; lia|].
    assert (T : forall j, (k < j)%nat -> nth j y 0%Z = 0%Z) by (intros; apply (IHn (S k)); lia).
    destruct (Nat.eq_dec j k) as [->|]; [|apply T; lia].
    destruct (Z.eq_dec (nth k y 0%Z) 0) as [E|E]; auto. exfalso.
    assert (P : r k <= vlen d mu r y).
    { eapply Qcle_trans; [|apply (plen_anti d mu r no_target y 0 k); [intros; apply Qclt_le_weak; auto|lia]].
      rewrite plen_step by lia. rewrite (nth_tail_gcoord d mu y k T).
      pose proof (plen_nonneg d mu r no_target y (S k) ltac:(intros; apply Qclt_le_weak; auto)) as PN.
      pose proof (Qcz_sq_ge1 _ E) as SQ. specialize (Hr k ltac:(lia)). revert PN SQ Hr.
      generalize (plen d mu r no_target y (S k)) (Qcz (nth k y 0%Z) * Qcz (nth k y 0%Z)) (r k). intros. qcnra. }
    specialize (Hd' k ltac:(lia)). apply (Qclt_not_le _ _ Hd'). eapply Qcle_trans; eauto. }
  intros j Hj. destruct (Nat.le_gt_cases d j); [apply nth_overflow; lia|]. apply (M (d - d')%nat d'); lia.
Qed.

(** coordinates beyond [d'] zero: the vector of length d' has the same length *)
Lemma vlen_trunc d d' mu r x : (d' <= d)%nat -> (forall j, (d' <= j)%nat -> nth j x 0%Z = 0%Z) -> vlen d mu r x = vlen d' mu r x.
Proof.
  intros Hd Hz. unfold vlen, plen. cbn [Nat.leb].
  assert (GC : forall i, gcoord d mu no_target x i = gcoord d' mu no_target x i).
  { intros i. unfold gcoord. f_equal. f_equal. replace d with (d' + (d - d'))%nat by lia. rewrite qsum_split.
    rewrite (qsum_0 (d - d')); [ring|]. intros j Hj. rewrite Hz by lia. rewrite Qcz_0. destruct (Nat.ltb i (d' + j)); ring. }
  replace d with (d' + (d - d'))%nat at 1 by lia. rewrite qsum_split. rewrite (qsum_0 (d - d')).
  - rewrite Qcplus_0_r. apply qsum_ext. intros i Hi. now rewrite GC.
  - intros j Hj. replace (gcoord d mu no_target x (d' + j)) with 0; [ring|]. symmetry. rewrite nth_tail_gcoord by (intros; apply Hz; lia). rewrite Hz by lia. apply Qcz_0.
Qed.
Lemma vlen_ext d mu r x y : (forall j, (j < d)%nat -> nth j x 0%Z = nth j y 0%Z) -> vlen d mu r x = vlen d mu r y.
Proof.
  intros H. unfold vlen, plen. cbn [Nat.leb]. apply qsum_ext. intros i Hi.
  replace (gcoord d mu no_target y i) with (gcoord d mu no_target x i); auto. unfold gcoord. rewrite (H i Hi). f_equal. f_equal.
  apply qsum_ext. intros j Hj. now rewrite (H j Hj).
Qed.

(** ** out_coord *)
Definition pad (d d' : nat) (v : list Z) : list Z := map (fun i => if (i <? d')%nat then nth i v 0%Z else 0%Z) (seq 0 d).
Lemma pad_length d d' v : length (pad d d' v) = d.
Proof. unfold pad. now rewrite map_length, seq_length. Qed.
Lemma pad_nth d d' v j : (d' <= d)%nat -> length v = d' -> nth j (pad d d' v) 0%Z = nth j v 0%Z.
Proof.
  intros Hd Hv. destruct (Nat.lt_ge_cases j d) as [L|L].
  - unfold pad. rewrite nth_map_seq by auto. destruct (Nat.ltb_spec j d'); auto. now rewrite nth_overflow by lia.
  - rewrite !nth_overflow; auto; [lia|rewrite pad_length; lia].
Qed.

(** ** the lattice *)
Section Lat.
Variables (c : nat) (B : list (list Z)) (bs mu : nat -> nat -> Qc).
Notation d := (length B).
Notation r := (fun i => norm2 c (bs i)).
Notation d' := (last_useful_index d r).
Hypothesis Hd : (0 < d)%nat.
Hypothesis G : gso_of c B d bs mu.
Hypothesis Hr : forall i, (i < d)%nat -> 0 < norm2 c (bs i).

Lemma coord_sq_norm v : Qcz (coord_sq c B v) = norm2 c (comb B v).
Proof.
  unfold coord_sq, norm2, ip. rewrite Qcz_sum. apply qsum_ext. intros k Hk. rewrite Qcz_mul.
  assert (E : Qcz (zsum d (fun i => (nth i v 0 * ent B i k)%Z)) = comb B v k).
  { rewrite Qcz_sum. unfold comb, qrow. apply qsum_ext. intros. apply Qcz_mul. }
  now rewrite E.
Qed.
Lemma coord_sq_nonneg v : (0 <= coord_sq c B v)%Z.
Proof. apply Qcz_le. rewrite coord_sq_norm, Qcz_0. unfold norm2, ip. apply qsum_nonneg. intros. apply Qcsq_nonneg. Qed.
Lemma coord_sq_vlen v : Qcz (coord_sq c B v) = vlen d mu r v.
Proof. rewrite coord_sq_norm. symmetry. now apply vlen_norm. Qed.
Lemma coord_sq_ext v w : (forall j, (j < d)%nat -> nth j v 0%Z = nth j w 0%Z) -> coord_sq c B v = coord_sq c B w.
Proof. intros H. apply Qcz_inj. rewrite !coord_sq_vlen. now apply vlen_ext. Qed.
Lemma coord_sq_neg v : coord_sq c B (neg v) = coord_sq c B v.
Proof. apply Qcz_inj. rewrite !coord_sq_vlen. unfold vlen. apply plen_neg. Qed.

Lemma d'_range : (1 <= d' <= d)%nat.
Proof. now apply lui_spec. Qed.
Lemma vlen_d' v : length v = d' -> vlen d' mu r v = Qcz (coord_sq c B v).
Proof. intros H. rewrite coord_sq_vlen. symmetry. apply vlen_trunc; [apply d'_range|]. intros. apply nth_overflow. lia. Qed.

(** the i-th basis vector in coordinates *)
Definition unitv (n i : nat) : list Z := map (fun j => if (j =? i)%nat then 1%Z else 0%Z) (seq 0 n).
Lemma unitv_nth n i j : (i < n)%nat -> nth j (unitv n i) 0%Z = if (j =? i)%nat then 1%Z else 0%Z.
Proof.
  intros Hi. destruct (Nat.lt_ge_cases j n).
  - unfold unitv. now rewrite nth_map_seq.
  - rewrite nth_overflow by (unfold unitv; rewrite map_length, seq_length; lia). destruct (Nat.eqb_spec j i); [lia|auto].
Qed.
Lemma unitv_length n i : length (unitv n i) = n.
Proof. unfold unitv. now rewrite map_length, seq_length. Qed.
Lemma unitv_nonzero n i : (i < n)%nat -> nonzero (unitv n i).
Proof. intros H. exists i. rewrite unitv_nth, Nat.eqb_refl by auto. discriminate. Qed.
Lemma zsum_ext' n (f g : nat -> Z) : (forall i, (i < n)%nat -> f i = g i) -> zsum n f = zsum n g.
Proof. intros H. induction n; cbn; auto. rewrite IHn by (intros; apply H; lia). rewrite (H n) by lia. reflexivity. Qed.
Lemma unitv_sq n i : (i < n)%nat -> (n <= d)%nat -> coord_sq c B (unitv n i) = row_sq c B i.
Proof.
  intros Hi Hn. unfold coord_sq, row_sq. apply zsum_ext'. intros k Hk.
  assert (E : zsum d (fun j => (nth j (unitv n i) 0 * ent B j k)%Z) = ent B i k).
  { apply Qcz_inj. rewrite Qcz_sum. rewrite (qsum_single d i); [|lia|].
    - rewrite unitv_nth, Nat.eqb_refl by auto. now rewrite Z.mul_1_l.
    - intros j Hj Hne. rewrite unitv_nth by auto. destruct (Nat.eqb_spec j i); [lia|reflexivity]. }
  now rewrite E.
Qed.

(** squared norm of b_0 *)
Lemma row0 : Qcz (row_sq c B 0) = norm2 c (bs 0%nat).
Proof.
  rewrite <- (unitv_sq 1 0) by lia. rewrite coord_sq_vlen. rewrite (vlen_trunc d 1); [|lia|].
  - unfold vlen, plen. cbn [qsum Nat.leb]. rewrite nth_tail_gcoord.
    + rewrite unitv_nth by lia. cbn [Nat.eqb]. rewrite Qcz_1. ring.
    + intros j Hj. apply nth_overflow. rewrite unitv_length. lia.
  - intros j Hj. apply nth_overflow. rewrite unitv_length. lia.
Qed.

Notation imd := (get_basis_min (row_sq c B) 0 d').
Lemma imd_spec : (forall i, (i < d')%nat -> (imd <= row_sq c B i)%Z) /\ exists i, (i < d')%nat /\ imd = row_sq c B i.
Proof. apply gbm_spec. pose proof d'_range. lia. Qed.
Lemma imd_nonneg : (0 <= imd)%Z.
Proof. destruct imd_spec as [_ (i & Hi & ->)]. pose proof d'_range. rewrite <- (unitv_sq d' i) by lia. apply coord_sq_nonneg. Qed.

(** a shortest vector among those of d' coordinates is a shortest vector of the lattice *)
Lemma short_all x : length x = d' -> (forall y, length y = d' -> nonzero y -> (coord_sq c B x <= coord_sq c B y)%Z) ->
  forall y, length y = d -> nonzero y -> (coord_sq c B x <= coord_sq c B y)%Z.
Proof.
  intros Lx HX y Ly NZ. pose proof d'_range as RG.
  assert (X0 : (coord_sq c B x <= row_sq c B 0)%Z).
  { rewrite <- (unitv_sq d' 0) by lia. apply HX; [apply unitv_length|apply unitv_nonzero; lia]. }
  destruct (Z_lt_le_dec (row_sq c B 0) (coord_sq c B y)) as [L|L]; [lia|].
  assert (T : forall j, (d' <= j)%nat -> nth j y 0%Z = 0%Z).
  { apply (tail_zero d mu r y d' (r 0%nat)); auto; [lia| |].
    - intros j Hj. destruct (lui_spec d r Hd) as [_ A]. specialize (A j Hj). cbv beta in A.
      pose proof (Hr 0%nat Hd) as P. assert (Qcz 2 = 1 + 1) as E2 by (rewrite <- Qcz_1, <- Qcz_add; reflexivity). rewrite E2 in A.
      revert A P. generalize (norm2 c (bs j)) (norm2 c (bs 0%nat)). intros. qclra.
    - rewrite <- row0, <- coord_sq_vlen. now apply Qcz_le. }
  assert (E : coord_sq c B y = coord_sq c B (firstn d' y)).
  { apply coord_sq_ext. intros j Hj. destruct (Nat.lt_ge_cases j d') as [L'|L'].
    - symmetry. clear -L'. revert j L'. generalize d'. intros n. revert n. induction y as [|a y IH]; intros [|n] [|j] H; cbn; auto; try lia. apply IH. lia.
    - rewrite T by auto. rewrite nth_overflow; auto. rewrite firstn_length. lia. }
  rewrite E. apply HX.
  - rewrite firstn_length. lia.
  - destruct NZ as [i Hi]. exists i. destruct (Nat.lt_ge_cases i d') as [L'|L']; [|now rewrite T in Hi].
    intros K. apply Hi. rewrite <- K. clear -L'. revert i L'. generalize d'. intros n. revert n. induction y as [|a y IH]; intros [|n] [|i] H; cbn; auto; try lia. apply IH. lia.
Qed.
Lemma pad_sq v : length v = d' -> coord_sq c B (pad d d' v) = coord_sq c B v.
Proof. intros H. apply coord_sq_ext. intros. apply pad_nth; auto. apply d'_range. Qed.
Lemma pad_nonzero v : length v = d' -> nonzero v -> nonzero (pad d d' v).
Proof. intros H [i Hi]. exists i. rewrite pad_nth; auto. apply d'_range. Qed.
End Lat.

(** ** the exact evaluator keeping one solution *)
Section ExactOne.
Variables (c : nat) (B : list (list Z)) (ne : Z) (infl : Z -> Qc) (imd0 : Z).
Notation f := (q_fops ne).
Notation sq := (coord_sq c B).
Notation evalX := (exact_eval c B ne infl 1).
Notation evalXS := (fun off v nd (st : evst f * Z) => (eval_sub f off v nd (fst st), snd st)).
Hypothesis sq_pos : forall v, (0 <= sq v)%Z.
Hypothesis infl_ge : forall z, (0 <= z)%Z -> Qcz z <= infl z.
Hypothesis infl_mono : forall a b, (0 <= a <= b)%Z -> infl a <= infl b.
Hypothesis imd0_pos : (0 <= imd0)%Z.

Definition XI (st : evst f * Z) (m : Qc) : Prop :=
  m = infl (snd st) * pow2 (- ne) /\ (0 <= snd st)%Z /\
  ((ev_sols (fst st) = [] /\ snd st = imd0) \/ exists v, ev_sols (fst st) = [(infl (snd st), v)] /\ sq v = snd st).

Lemma infl_nonneg z : (0 <= z)%Z -> 0 <= infl z.
Proof. intros H. eapply Qcle_trans; [|now apply infl_ge]. rewrite <- Qcz_0. now apply Qcz_le. Qed.
Lemma XI_pos st m : XI st m -> 0 <= m.
Proof.
  intros (-> & H & _). pose proof (infl_nonneg _ H) as A. pose proof (pow2_pos (- ne)) as P. revert A P.
  generalize (infl (snd st)) (pow2 (- ne)). intros. qcnra.
Qed.

Lemma evalX_step v nd m st : XI st m ->
  (if (sq v <=? snd st)%Z
   then ev_sols (fst (fst (evalX v nd m st))) = [(infl (sq v), v)] /\ snd (fst (evalX v nd m st)) = sq v /\ snd (evalX v nd m st) = infl (sq v) * pow2 (- ne)
   else evalX v nd m st = (st, m)).
Proof.
  intros (Hm & Hp & HS). unfold exact_eval, exact_sol.
  destruct (Z.ltb_spec (snd st) 0) as [L|_]; [lia|]. cbn [orb].
  destruct (Z.leb_spec (sq v) (snd st)) as [L|L].
  - unfold process_sol. cbn zeta. destruct HS as [[-> _]|(w & -> & HW)].
    + cbn [emplace length Nat.ltb Nat.leb fst snd ev_sols]. split; [reflexivity|]. split; reflexivity.
    + assert (F : f_lt f (infl (snd st)) (infl (sq v)) = false).
      { cbn [f_lt q_fops]. apply eltb_ge. apply infl_mono. split; auto. }
      cbn [emplace fst]. rewrite F. cbn [emplace length Nat.ltb Nat.leb List.tl fst snd ev_sols]. split; [reflexivity|]. split; reflexivity.
  - destruct st as [ev i]. reflexivity.
Qed.
Lemma XI_sol v nd m st : XI st m -> XI (fst (evalX v nd m st)) (snd (evalX v nd m st)) /\ snd (evalX v nd m st) <= m.
Proof.
  intros H. pose proof (evalX_step v nd m st H) as S. destruct (Z.leb_spec (sq v) (snd st)) as [L|L].
  - destruct S as (S1 & S2 & S3). destruct H as (Hm & Hp & HS). split.
    + split; [rewrite S2, S3; reflexivity|]. split; [rewrite S2; auto|]. right. exists v. rewrite S1, S2. auto.
    + rewrite S3, Hm. apply Qcmult_le_compat_r; [apply infl_mono; split; auto|]. apply Qclt_le_weak, pow2_pos.
  - rewrite S. cbn [fst snd]. split; auto. apply Qcle_refl.
Qed.
Lemma XI_sub off v nd m st : XI st m -> XI (evalXS off v nd st) m.
Proof. unfold XI. cbn [fst snd]. now rewrite sub_sols. Qed.
Lemma XI_init : XI (ev_init f, imd0) (infl imd0 * pow2 (- ne)).
Proof. split; [reflexivity|]. split; [exact imd0_pos|]. left. split; reflexivity. Qed.

(** what a log of reports leaves behind *)
Lemma replay_exact l : let a := replay qe_ops evalX evalXS (ev_init f, imd0) (infl imd0 * pow2 (- ne)) l in
  XI (fst a) (snd a) /\
  (forall v nd m, In (v, nd, m) (sols l) -> (snd (fst a) <= sq v)%Z) /\
  (snd (fst a) <= imd0)%Z /\
  (ev_sols (fst (fst a)) = [] -> forall v nd m, In (v, nd, m) (sols l) -> (imd0 < sq v)%Z) /\
  (forall p, In p (ev_sols (fst (fst a))) -> In (snd p) (map vecof (sols l))).
Proof.
  cbn zeta. induction l as [|e l IH].
  - cbn [replay fst snd sols flat_map map]. split; [apply XI_init|]. split; [intros v nd m []|]. split; [lia|]. split; [intros _ v nd m []|intros p []].
  - destruct IH as (I1 & I2 & I3 & I4 & I5). destruct e as [v nd m|off v nd].
    + change (sols (EvSol v nd m :: l)) with ((v, nd, m) :: sols l). cbn [replay].
      destruct (replay qe_ops evalX evalXS (ev_init f, imd0) (infl imd0 * pow2 (- ne)) l) as [st mm]. cbn [fst snd] in *.
      change (E qe_ops) with Qc in *. split; [now apply XI_sol|]. pose proof (evalX_step v nd mm st I1) as S. destruct (Z.leb_spec (sq v) (snd st)) as [L|L].
      * destruct S as (S1 & S2 & S3). rewrite S1, S2. split; [|split; [|split]].
        -- intros w nd' m' [E|E]; [injection E as <- _ _; lia|]. specialize (I2 _ _ _ E). lia.
        -- lia.
        -- discriminate.
        -- intros p [<-|[]]. now left.
      * rewrite S. cbn [fst snd]. split; [|split; [|split]].
        -- intros w nd' m' [E|E]; [injection E as <- _ _; lia|]. eapply I2; eauto.
        -- lia.
        -- intros E w nd' m' [E'|E']; [injection E' as <- _ _|eapply I4; eauto].
           destruct I1 as (_ & _ & [[_ K]|(w & K & _)]); [lia|rewrite K in E; discriminate].
        -- intros p Hp. right. now apply I5.
    + change (sols (EvSub off v nd :: l)) with (sols l). cbn [replay fst snd]. split; [now apply XI_sub|]. rewrite sub_sols. auto.
Qed.
End ExactOne.

(** ** both methods return a shortest vector *)
Section Both.
Variables (c : nat) (B : list (list Z)) (bs mu : nat -> nat -> Qc) (rec : bool) (ne : Z) (infl : Z -> Qc).
Notation d := (length B).
Notation r := (fun i => norm2 c (bs i)).
Notation d' := (last_useful_index d r).
Notation imd := (get_basis_min (row_sq c B) 0 d').
Notation sq := (coord_sq c B).
Hypothesis Hd : (0 < d)%nat.
Hypothesis G : gso_of c B d bs mu.
Hypothesis Hr : forall i, (i < d)%nat -> 0 < norm2 c (bs i).
Hypothesis infl_ge : forall z, (0 <= z)%Z -> Qcz z <= infl z.
Hypothesis infl_mono : forall a b, (0 <= a <= b)%Z -> infl a <= infl b.

Lemma nr1 : nr_solutions 0 = 1%nat.
Proof. reflexivity. Qed.
Lemma R_ok : 0 <= infl imd.
Proof. apply infl_nonneg; auto. now apply (imd_nonneg c B bs Hd). Qed.
Lemma argmin : exists y, length y = d' /\ nonzero y /\ sq y = imd.
Proof.
  destruct (imd_spec c B bs Hd) as [_ (i & Hi & E)]. pose proof (d'_range c B bs Hd). exists (unitv d' i).
  split; [apply unitv_length|]. split; [now apply (unitv_nonzero B Hd)|]. rewrite unitv_sq; auto; lia.
Qed.

Lemma fast_one fuel l : svp_sols c B mu r rec ne fuel infl SVPM_FAST 0 = Some l ->
  exists x, l = [(Qcz (sq x), x)] /\ length x = d' /\ nonzero x /\ forall y, length y = d' -> nonzero y -> (sq x <= sq y)%Z.
Proof.
  unfold svp_sols. rewrite nr1. intros H. pose proof (d'_range c B bs Hd) as RG.
  destruct (run_enum qe_ops (eval_sol (q_fops ne) BestN 1) _ _ _ _ _ _) as [s|] eqn:E; [|discriminate]. cbn [option_map] in H. injection H as <-.
  destruct (enum_shortest d' mu r false (infl imd) ne rec fuel s) as [A _].
  - lia.
  - intros k Hk. apply Hr. lia.
  - apply R_ok.
  - exact E.
  - destruct A as (x & K & Lx & NZ & MIN).
    + destruct argmin as (y & Ly & NZ & SY). exists y. split; auto. split; auto. rewrite (vlen_d' c B bs mu Hd G) by auto. rewrite SY. apply infl_ge.
      now apply (imd_nonneg c B bs Hd).
    + exists x. rewrite (vlen_d' c B bs mu Hd G) in K by auto. split; [exact K|]. split; auto. split; auto.
      intros y Ly NY. specialize (MIN y Ly NY). rewrite !(vlen_d' c B bs mu Hd G) in MIN by auto. now apply Qcz_le.
Qed.

Lemma proved_one fuel l : svp_sols c B mu r rec ne fuel infl SVPM_PROVED 0 = Some l ->
  exists x, l = [(infl (sq x), x)] /\ length x = d' /\ nonzero x /\ forall y, length y = d' -> nonzero y -> (sq x <= sq y)%Z.
Proof.
  unfold svp_sols. rewrite nr1. intros H. pose proof (d'_range c B bs Hd) as RG. pose proof (imd_nonneg c B bs Hd) as IP.
  pose proof (coord_sq_nonneg c B) as SP.
  destruct (run_enum qe_ops (exact_eval c B ne infl 1) _ _ _ _ _ _) as [s|] eqn:E; [|discriminate]. cbn [option_map] in H. injection H as <-.
  apply (call_spec d' mu r None [] false None (infl imd) ne) with (EInv := XI c B ne infl imd) in E; cycle 1.
  - cbn. lia.
  - intros k Hk. apply Hr. lia.
  - intros k Hk. cbn. discriminate.
  - apply Qcle_refl.
  - intros v nd m ev HX _ _. now apply XI_sol.
  - intros ev m HX. eapply XI_pos; eauto.
  - intros. now apply XI_sub.
  - now apply XI_init.
  - cbn [length]. rewrite root_zero. apply R_ok.
  - destruct E as [F1 F2 F3 F4 F5 [F6 F7]]. cbn [length] in *. rewrite Nat.sub_0_r in *.
    pose proof (replay_exact c B ne infl imd SP infl_mono IP (g_log (s_g s))) as RX. cbn zeta in RX.
    rewrite F6 in RX. cbn [fst snd] in RX. destruct RX as (X1 & X2 & X3 & X4 & X5).
    destruct (g_ev (s_g s)) as [ev im] eqn:EV. cbn [fst snd] in *.
    (* every vector at most as long as the final int_max_dist is in the log, up to sign *)
    assert (FND : forall y, length y = d' -> nonzero y -> (sq y <= im)%Z -> exists v nd m, In (v, nd, m) (sols (g_log (s_g s))) /\ sq v = sq y).
    { assert (MAIN : forall y, length y = d' -> tpos y = true -> (sq y <= im)%Z -> exists v nd m, In (v, nd, m) (sols (g_log (s_g s))) /\ sq v = sq y).
      { intros y Ly TY SY. assert (IN : In y (map vecof (sols (g_log (s_g s))))).
        { apply F3; auto; [apply skipn_all2; lia|]. intros k Hk. cbn [prune_at tgt]. rewrite Qcmult_1_l.
          eapply Qcle_trans; [apply (plen_anti d' mu r no_target y 0 k); [intros i Hi; apply Qclt_le_weak, Hr; lia|lia]|].
          fold (vlen d' mu r y). rewrite (vlen_d' c B bs mu Hd G) by auto.
          destruct X1 as (-> & IM & _). cbn [snd]. rewrite unscale. eapply Qcle_trans; [|apply infl_ge; auto]. now apply Qcz_le. }
        apply in_map_iff in IN as ([[v nd] m] & E & IN). cbn in E. subst v. exists y, nd, m. auto. }
      intros y Ly NY SY. destruct (tpos_or_opp y) as [T|T]; [now apply nonzero_allz|now apply MAIN|].
      change (map Z.opp y) with (neg y) in T. destruct (MAIN (neg y)) as (v & nd & m & IN & SV); auto.
      - unfold neg. now rewrite map_length.
      - rewrite (coord_sq_neg c B bs mu G). auto.
      - exists v, nd, m. rewrite (coord_sq_neg c B bs mu G) in SV. auto. }
    destruct X1 as (XM & IM & [[S1 S2]|(x & S1 & S2)]); cbn [fst snd] in *.
    + exfalso. destruct argmin as (y & Ly & NY & SY). destruct (FND y Ly NY ltac:(lia)) as (v & nd & m & IN & SV).
      specialize (X4 S1 v nd m IN). lia.
    + rewrite S1 in *. specialize (X5 _ (or_introl eq_refl)). cbn [snd] in X5.
      apply in_map_iff in X5 as ([[v nd] m] & E & IN). cbn in E. subst v. destruct (F1 x nd m IN) as (A1 & _ & _ & _ & _ & A6).
      specialize (A6 eq_refl) as [A6 _]. exists x. rewrite S2. split; auto. split; auto. split; [apply nonzero_allz; now apply tpos_nz|].
      intros y Ly NY. destruct (Z_lt_le_dec (sq y) im) as [L|L]; [|lia]. destruct (FND y Ly NY ltac:(lia)) as (v & nd' & m' & IN' & SV).
      specialize (X2 v nd' m' IN'). lia.
Qed.

Lemma sols_total method max_aux : (0 <= max_aux < 2 ^ 31 - 1)%Z -> (method = SVPM_PROVED -> max_aux = 0%Z) ->
  exists fuel l, svp_sols c B mu r rec ne fuel infl method max_aux = Some l.
Proof.
  intros HM HP. pose proof (d'_range c B bs Hd) as RG. pose proof (imd_nonneg c B bs Hd) as IP. pose proof (coord_sq_nonneg c B) as SP.
  destruct method.
  - assert (HN : (1 <= nr_solutions max_aux)%nat).
    { unfold nr_solutions. rewrite Z.mod_small; lia. }
    destruct (enum_best_terminates d' mu r None false (infl imd) ne (nr_solutions max_aux) rec) as (fuel & s & E).
    + lia.
    + intros k Hk. apply Hr. lia.
    + apply R_ok.
    + exact HN.
    + exists fuel. unfold svp_sols.
      change (run_enum qe_ops (eval_sol (q_fops ne) BestN (nr_solutions max_aux)) (eval_sub (q_fops ne)) (no_rst qe_ops) rec fuel
        (enum_input d' mu r None [] false None (infl imd) ne) (ev_init (q_fops ne)) = Some s) in E.
      rewrite E. cbn [option_map]. eauto.
  - rewrite (HP eq_refl). destruct (call_terminates d' mu r None [] false None (infl imd) ne) with (EV := (evst (q_fops ne) * Z)%type)
      (evalS := exact_eval c B ne infl 1) (evalSub := fun off v nd (st : evst (q_fops ne) * Z) => (eval_sub (q_fops ne) off v nd (fst st), snd st))
      (rst := no_rst qe_ops) (EInv := XI c B ne infl imd) (ev0 := (ev_init (q_fops ne), imd)) (rec := rec) as (fuel & s & E).
    + cbn. lia.
    + intros k Hk. apply Hr. lia.
    + intros k Hk. cbn. discriminate.
    + apply Qcle_refl.
    + intros v nd m ev HX _ _. now apply XI_sol.
    + intros ev m HX. eapply XI_pos; eauto.
    + intros. now apply XI_sub.
    + now apply XI_init.
    + cbn [length]. rewrite root_zero. apply R_ok.
    + exists fuel, (ev_sols (fst (g_ev (s_g s)))). unfold svp_sols. rewrite nr1.
      exact (f_equal (option_map (fun s => ev_sols (fst (g_ev (s_g s))))) E).
Qed.
End Both.
