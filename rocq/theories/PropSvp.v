(** C47, C59: what shortest_vector, shortest_vector_pruning and shortest_vectors hand back. *)
From Coq Require Import List ZArith QArith Qcanon Arith Bool Lia Permutation Sorted.
From Verif Require Import Util QcUtil LatticeSpec LllSpec EnumModel EnumExact EnumTree EnumSpec EnumLink EnumNorm EvalModel EvalProofs EnumCall
  GsoQ QGs LllSpecFacts PropEnum PropEval SvpModel SvpProofs.
Import ListNotations.
Local Open Scope nat_scope.

Section Reports.
Context {E : Type} (f : fops E).
Hypothesis lt_asym : forall a b, f_lt f a b = true -> f_lt f b a = false.
Hypothesis le_trans : forall a b c, f_lt f b a = false -> f_lt f c b = false -> f_lt f c a = false.
Variables (sq : list Z -> Z) (of_int : Z -> option (FT f)).
Notation item := (FT f * list Z)%type.

Lemma nr_ok k : (0 <= k < 2 ^ 31 - 1)%Z -> nr_solutions k = Z.to_nat (k + 1) /\ 1 <= nr_solutions k.
Proof. intros H. unfold nr_solutions. rewrite Z.mod_small by lia. lia. Qed.
Lemma checks d n : 1 <= d <= n -> negb ((0 <? d) && (0 <? n) && (d <=? n)) = false.
Proof. intros H. destruct (Nat.ltb_spec 0 d), (Nat.ltb_spec 0 n), (Nat.leb_spec d n); try lia; reflexivity. Qed.

(** shortest first *)
Definition increasing (l : list item) : Prop := StronglySorted (key_le f) l.
Lemma sorted_rev l : sorted f l -> increasing (rev l).
Proof.
  unfold increasing. induction l as [|a l IH]; intros H; [constructor|]. inversion H; subst. cbn [rev].
  specialize (IH H2). clear H H2. induction (rev l) as [|b t IHt] eqn:R in l, IH, H3 |- *.
  - repeat constructor.
  - cbn [app]. inversion IH; subst. constructor.
    + apply (IHt (rev t)); auto; [now rewrite rev_involutive|]. 
      rewrite Forall_forall in *. intros x Hx. apply H3. rewrite <- (rev_involutive l), R. cbn. apply in_or_app. left. exact Hx.
    + rewrite Forall_forall in *. intros x Hx. apply in_app_or in Hx as [Hx|[<-|[]]]; [auto|]. apply H3.
      rewrite <- (rev_involutive l), R. cbn. apply in_or_app. right. now left.
Qed.
Lemma shortest_of_rev N l all : shortest_of f N l all -> shortest_of f N (rev l) all.
Proof.
  intros (dr & P & L & D). exists dr. split; [now rewrite <- Permutation_rev|]. split; [now rewrite rev_length|].
  intros k q Hk Hq. apply D; auto. now apply in_rev.
Qed.

Lemma finish_merge d d' sols old k : (forall p, In p sols -> d' <= length (snd p)) -> k <> 0%Z ->
  svp_finish f d d' sols (Some old) k true =
  SvpRet (match sols with [] => SvpEnumFailure | _ => SvpSuccess end)
         (match rev sols with [] => repeat 0%Z d | (_, v) :: _ => pad d d' v end) (Some (rev sols)).
Proof.
  intros HL HK. unfold svp_finish, out_coord, out_aux. destruct (Z.eqb_spec k 0); [lia|].
  destruct (rev sols) as [|[l v] t] eqn:R.
  - destruct sols; [reflexivity|]. apply (f_equal (@length _)) in R. rewrite rev_length in R. discriminate.
  - assert (IN : In (l, v) sols) by (apply in_rev; rewrite R; now left). specialize (HL _ IN). cbn [snd] in HL.
    destruct (Nat.ltb_spec (length v) d'); [lia|]. destruct sols; [discriminate R|reflexivity].
Qed.

(** C47, method SVPM_FAST.  For max_sols >= 2, whatever the enumeration reports: the outputs are the max_sols shortest
    reports (all if there are fewer), shortest first; success is returned exactly when at least one is output. *)
Theorem shortest_vectors_fast_outputs d n d' found m0 imd0 old max_sols :
  1 <= d <= n -> (2 <= max_sols < 2 ^ 31)%Z -> (forall p, In p found -> d' <= length (fst p)) ->
  exists st out,
    shortest_vectors f sq of_int SVPM_FAST d n d' found m0 imd0 old max_sols = SvpRet st [] (Some out) /\
    shortest_of f (Z.to_nat max_sols) out (items f found) /\ increasing out /\
    (st = SvpSuccess <-> out <> []) /\ (st = SvpSuccess <-> found <> []).
Proof.
  intros HD HM HL. destruct (nr_ok (max_sols - 1) ltac:(lia)) as [N1 N2].
  unfold shortest_vectors, shortest_vector_ex. rewrite checks by auto.
  destruct (Z.eqb_spec (max_sols - 1) (2 ^ 31 - 1)); [lia|]. destruct (Nat.eqb_spec (nr_solutions (max_sols - 1)) 0); [lia|].
  set (N := nr_solutions (max_sols - 1)) in *. set (ev := fst (eval_all f BestN N found (ev_init f) m0)).
  assert (S : store_ok f N ev (items f found)).
  { apply (store_all f lt_asym le_trans N N2 BestN found ltac:(discriminate) (ev_init f) m0 []). apply store_init; auto. }
  destruct S as [S1 S2].
  assert (LEN : length (ev_sols ev) = Nat.min N (length found)).
  { destruct S2 as (dr & _ & L & _). unfold items in L. now rewrite map_length in L. }
  assert (SIN : forall p, In p (ev_sols ev) -> d' <= length (snd p)).
  { intros p Hp. destruct S2 as (dr & P & _). assert (IN : In p (items f found)) by (apply (Permutation_in _ P), in_or_app; auto).
    unfold items in IN. apply in_map_iff in IN as (q & <- & IN). cbn [snd]. auto. }
  rewrite finish_merge by (auto; lia).
  eexists. exists (rev (ev_sols ev)). split; [reflexivity|]. split; [|split; [|split]].
  - replace (Z.to_nat max_sols) with N by (rewrite N1; f_equal; lia). now apply shortest_of_rev.
  - now apply sorted_rev.
  - destruct (ev_sols ev) as [|a t]; [split; [discriminate|intros H; now contradict H]|]. split; auto. intros _ H. apply (f_equal (@length _)) in H. rewrite rev_length in H. discriminate.
  - destruct (ev_sols ev) as [|a t].
    + cbn [length] in LEN. destruct found; [split; [discriminate|congruence]|exfalso; cbn [length] in LEN; lia].
    + split; auto. intros _ H0. rewrite H0 in LEN. cbn [length] in LEN. rewrite Nat.min_0_r in LEN. discriminate.
Qed.

(** ** the exact evaluator *)
(** the reports not longer than [b] nor than any earlier one taken: what "improves or ties" *)
Fixpoint records (b : Z) (l : list (list Z)) : list (list Z) :=
  match l with
  | [] => []
  | v :: t => if (sq v <=? b)%Z then v :: records (sq v) t else records b t
  end.
Lemma records_incl b l : forall v, In v (records b l) -> In v l /\ (sq v <= b)%Z.
Proof.
  revert b. induction l as [|a l IH]; cbn [records]; intros b v H; [destruct H|].
  destruct (Z.leb_spec (sq a) b) as [L|L].
  - destruct H as [<-|H]; [auto with datatypes|]. destruct (IH _ _ H). split; [now right|lia].
  - destruct (IH _ _ H). split; [now right|auto].
Qed.
Lemma records_best b l : forall v, In v l -> (sq v <= b)%Z -> exists w, In w (records b l) /\ (sq w <= sq v)%Z.
Proof.
  revert b. induction l as [|a l IH]; cbn [records]; intros b v H HB; [destruct H|].
  destruct (Z.leb_spec (sq a) b) as [L|L].
  - destruct H as [<-|H]; [exists a; split; [now left|lia]|]. destruct (Z_le_gt_dec (sq v) (sq a)) as [L'|L'].
    + destruct (IH (sq a) v H L') as (w & W1 & W2). exists w. split; [now right|auto].
    + exists a. split; [now left|lia].
  - destruct H as [<-|H]; [lia|]. now apply IH.
Qed.

Variable len : Z -> FT f.
Definition rec_items (l : list (list Z)) : list item := map (fun v => (len (sq v), v)) l.
Lemma exact_store N : 1 <= N -> (forall v, 0 <= sq v)%Z -> forall l m ev imd all, (0 <= imd)%Z -> store_ok f N ev all ->
  exists ev' m' imd', exact_all f sq (fun z => Some (len z)) N l m ev imd = Some (ev', m', imd') /\
    store_ok f N ev' (all ++ rec_items (records imd l)).
Proof.
  intros HN SP. induction l as [|v l IH]; intros m ev imd all HI HS; cbn [exact_all records].
  - exists ev, m, imd. cbn. rewrite app_nil_r. auto.
  - unfold exact_sol. destruct (Z.ltb_spec imd 0); [lia|]. cbn [orb]. destruct (Z.leb_spec (sq v) imd) as [L|L]; [|apply IH; auto].
    pose proof (store_process f lt_asym le_trans N HN BestN (len (sq v)) v m ev all ltac:(discriminate) HS) as ST.
    destruct (process_sol f BestN N (len (sq v)) v ev m) as [ev1 m1]. cbn [fst] in ST.
    destruct (IH m1 ev1 (sq v) (all ++ [(len (sq v), v)]) (SP v) ST) as (ev' & m' & imd' & A1 & A2).
    exists ev', m', imd'. split; auto. cbn [rec_items map]. unfold rec_items in A2. rewrite <- app_assoc in A2. exact A2.
Qed.

(** C47, method SVPM_PROVED, no abort in int_dist2Float: the outputs are the max_sols shortest of the reports that were
    not longer than any before them (nor than the basis minimum [imd0]), shortest first; success exactly when there
    is one.  If lengths are kept in order ([len] monotone), the first is at most as long as any report within imd0. *)
Theorem shortest_vectors_proved_outputs d n d' found m0 imd0 old max_sols :
  1 <= d <= n -> (2 <= max_sols < 2 ^ 31)%Z -> (forall p, In p found -> d' <= length (fst p)) -> (0 <= imd0)%Z -> (forall v, 0 <= sq v)%Z ->
  (forall a b, (0 <= a <= b)%Z -> f_lt f (len b) (len a) = false) ->
  exists st out,
    shortest_vectors f sq (fun z => Some (len z)) SVPM_PROVED d n d' found m0 imd0 old max_sols = SvpRet st [] (Some out) /\
    shortest_of f (Z.to_nat max_sols) out (rec_items (records imd0 (map fst found))) /\ increasing out /\
    (st = SvpSuccess <-> exists p, In p found /\ (sq (fst p) <= imd0)%Z) /\
    (st = SvpSuccess -> exists l x t, out = (l, x) :: t /\ (exists p, In p found /\ x = fst p) /\
      forall p, In p found -> (sq (fst p) <= imd0)%Z -> f_lt f (len (sq (fst p))) (len (sq x)) = false).
Proof.
  intros HD HM HL HI SP MONO. destruct (nr_ok (max_sols - 1) ltac:(lia)) as [N1 N2].
  unfold shortest_vectors, shortest_vector_ex. rewrite checks by auto.
  destruct (Z.eqb_spec (max_sols - 1) (2 ^ 31 - 1)); [lia|]. destruct (Nat.eqb_spec (nr_solutions (max_sols - 1)) 0); [lia|].
  set (N := nr_solutions (max_sols - 1)) in *.
  destruct (exact_store N N2 SP (map fst found) m0 (ev_init f) imd0 [] HI (store_init f N N2)) as (ev & m' & imd' & -> & [S1 S2]).
  cbn [app] in S2. set (rs := records imd0 (map fst found)) in *.
  assert (RIN : forall v, In v rs -> (exists p, In p found /\ v = fst p) /\ (sq v <= imd0)%Z).
  { intros v Hv. apply records_incl in Hv as [Hv Hb]. apply in_map_iff in Hv as (p & <- & Hp). split; eauto. }
  assert (LEN : length (ev_sols ev) = Nat.min N (length rs)).
  { destruct S2 as (dr & _ & L & _). unfold rec_items in L. now rewrite map_length in L. }
  assert (SR : forall p, In p (ev_sols ev) -> exists v, p = (len (sq v), v) /\ In v rs).
  { intros p Hp. destruct S2 as (dr & P & _). assert (IN : In p (rec_items rs)) by (apply (Permutation_in _ P), in_or_app; auto).
    unfold rec_items in IN. apply in_map_iff in IN as (v & <- & IN). eauto. }
  assert (SIN : forall p, In p (ev_sols ev) -> d' <= length (snd p)).
  { intros p Hp. destruct (SR p Hp) as (v & -> & Hv). destruct (RIN v Hv) as [(q & Hq & ->) _]. cbn [snd]. auto. }
  rewrite finish_merge by (auto; lia).
  assert (EMP : ev_sols ev = [] <-> rs = []).
  { split; intros E0; [|rewrite E0 in LEN; cbn [length] in LEN; destruct (ev_sols ev); auto; cbn [length] in LEN; lia].
    rewrite E0 in LEN. cbn [length] in LEN. destruct rs; auto. cbn [length] in LEN. lia. }
  assert (RNE : (exists p, In p found /\ (sq (fst p) <= imd0)%Z) <-> rs <> []).
  { split.
    - intros (p & Hp & Hb) E0. destruct (records_best imd0 (map fst found) (fst p) (in_map fst _ _ Hp) Hb) as (w & W & _). fold rs in W. rewrite E0 in W. destruct W.
    - intros NE. destruct rs as [|v t]; [congruence|]. destruct (RIN v (or_introl eq_refl)) as [(p & Hp & ->) Hb]. eauto. }
  eexists. exists (rev (ev_sols ev)). split; [reflexivity|]. split; [|split; [|split]].
  - replace (Z.to_nat max_sols) with N by (rewrite N1; f_equal; lia). now apply shortest_of_rev.
  - now apply sorted_rev.
  - rewrite RNE. destruct (ev_sols ev) as [|a t].
    + split; [discriminate|]. intros NE. exfalso. apply NE, EMP; reflexivity.
    + split; auto. intros _ E0. apply EMP in E0. discriminate.
  - intros HS. destruct (rev (ev_sols ev)) as [|[l x] t] eqn:R.
    { exfalso. destruct (ev_sols ev); [discriminate|]. apply (f_equal (@length _)) in R. rewrite rev_length in R. discriminate. }
    exists l, x, t. split; auto.
    assert (IX : In (l, x) (ev_sols ev)) by (apply in_rev; rewrite R; now left).
    destruct (SR _ IX) as (v & EV & Hv). injection EV as -> <-. destruct (RIN x Hv) as [HX HB]. split; auto.
    intros p Hp Hb. destruct (records_best imd0 (map fst found) (fst p) (in_map fst _ _ Hp) Hb) as (w & W1 & W2). fold rs in W1.
    assert (XW : f_lt f (len (sq w)) (len (sq x)) = false).
    { assert (IW : In (len (sq w), w) (rec_items rs)) by (unfold rec_items; apply in_map_iff; eauto).
      destruct S2 as (dr & P & _ & D). apply (Permutation_in _ (Permutation_sym P)) in IW. apply in_app_or in IW as [IW|IW].
      - pose proof (sorted_rev _ S1) as INC. rewrite R in INC. inversion INC as [|? ? _ FA]; subst. apply in_rev in IW. rewrite R in IW. destruct IW as [EQ|IW].
        + injection EQ as E1 E2. subst w. apply MONO. pose proof (SP x). lia.
        + rewrite Forall_forall in FA. exact (FA _ IW).
      - exact (D _ _ IX IW). }
    apply (le_trans _ (len (sq w)) _); [exact XW|]. apply MONO. pose proof (SP w). lia.
Qed.

(** max_sols = 1 (either method): merge_sol_in_aux is set but max_aux_sols = 0 switches the copying off. *)
Theorem shortest_vectors_one_unchanged method d n d' found m0 imd0 old st x a :
  shortest_vectors f sq of_int method d n d' found m0 imd0 old 1 = SvpRet st x a -> a = Some old.
Proof.
  unfold shortest_vectors, shortest_vector_ex. destruct (negb _); [discriminate|]. change (1 - 1)%Z with 0%Z.
  change (0 =? 2 ^ 31 - 1)%Z with false. change (nr_solutions 0 =? 0) with false. cbn match.
  destruct (match method with SVPM_FAST => _ | SVPM_PROVED => _ end) as [ev|]; [|discriminate].
  unfold svp_finish, out_aux. destruct (out_coord f d d' (ev_sols ev)) as [[st' x']|]; [|discriminate]. cbn. intros H. now injection H as _ _ <-.
Qed.
(** max_sols = 0: the evaluator's constructor aborts. *)
Theorem shortest_vectors_zero_aborts method d n d' found m0 imd0 old : 1 <= d <= n ->
  shortest_vectors f sq of_int method d n d' found m0 imd0 old 0 = SvpAbort.
Proof. intros H. unfold shortest_vectors, shortest_vector_ex. rewrite checks by auto. reflexivity. Qed.

(** shortest_vector_pruning with auxiliary solutions: the rest of the shortest list, in order. *)
Theorem shortest_vector_aux_outputs d n d' found m0 old max_aux :
  1 <= d <= n -> (1 <= max_aux < 2 ^ 31 - 1)%Z -> (forall p, In p found -> d' <= length (fst p)) -> found <> [] ->
  exists l x out, shortest_vector_aux f sq of_int d n d' found m0 old max_aux = SvpRet SvpSuccess (pad d d' x) (Some out) /\
    shortest_of f (Z.to_nat max_aux + 1) ((l, x) :: out) (items f found) /\ increasing ((l, x) :: out).
Proof.
  intros HD HM HL NE.
  pose proof (shortest_vectors_fast_outputs d n d' found m0 0 old (max_aux + 1) HD ltac:(lia) HL) as (st & o & S & SH & INC & _ & S2).
  revert S. unfold shortest_vectors, shortest_vector_aux, shortest_vector_ex. rewrite checks by auto.
  replace (max_aux + 1 - 1)%Z with max_aux by lia. destruct (nr_ok max_aux ltac:(lia)) as [N1 N2].
  destruct (Z.eqb_spec max_aux (2 ^ 31 - 1)); [lia|]. destruct (Nat.eqb_spec (nr_solutions max_aux) 0); [lia|].
  set (N := nr_solutions max_aux) in *. set (ev := fst (eval_all f BestN N found (ev_init f) m0)).
  unfold svp_finish, out_coord, out_aux. destruct (Z.eqb_spec max_aux 0); [lia|].
  destruct (rev (ev_sols ev)) as [|[l x] t] eqn:R.
  - intros S. injection S as <- _. exfalso. apply S2 in NE. discriminate.
  - destruct (length x <? d'); [discriminate|]. intros S. injection S as <- <-. exists l, x, t. split; [reflexivity|]. split; auto.
    replace (Z.to_nat max_aux + 1) with (Z.to_nat (max_aux + 1)) by lia. exact SH.
Qed.
(** ... but when nothing is found, end() is incremented. *)
Theorem shortest_vector_aux_empty_undefined d n d' m0 old max_aux : 1 <= d <= n -> (max_aux <> 0)%Z -> (0 <= max_aux < 2 ^ 31 - 1)%Z ->
  shortest_vector_aux f sq of_int d n d' [] m0 old max_aux = SvpUndef.
Proof.
  intros HD H0 HM. unfold shortest_vector_aux, shortest_vector_ex. rewrite checks by auto. destruct (nr_ok max_aux ltac:(lia)) as [N1 N2].
  destruct (Z.eqb_spec max_aux (2 ^ 31 - 1)); [lia|]. destruct (Nat.eqb_spec (nr_solutions max_aux) 0); [lia|].
  unfold svp_finish, out_coord, out_aux. destruct (Z.eqb_spec max_aux 0); [lia|]. reflexivity.
Qed.

(** Dual lattice with SVPM_PROVED: int_max_dist is never assigned (svpcvp.cpp:129-144, 159), so it is 0 and no vector of
    positive squared norm is accepted, whatever the enumeration reports. *)
Theorem svp_dual_proved_fails d n d' found m0 aux max_aux merge st x a : (forall p, In p found -> (0 < sq (fst p))%Z) ->
  shortest_vector_ex f sq of_int SVPM_PROVED d n d' found m0 0 aux max_aux merge = SvpRet st x a -> st = SvpEnumFailure /\ x = repeat 0%Z d.
Proof.
  intros HP. unfold shortest_vector_ex. destruct (negb _); [discriminate|]. destruct (_ =? _)%Z; [discriminate|]. destruct (_ =? 0); [discriminate|].
  set (N := nr_solutions max_aux).
  assert (K : exact_all f sq of_int N (map fst found) m0 (ev_init f) 0 = Some (ev_init f, m0, 0%Z)).
  { induction found as [|p t IH]; [reflexivity|]. cbn [map exact_all]. unfold exact_sol. cbn [Z.ltb Z.compare orb].
    pose proof (HP p (or_introl eq_refl)). destruct (Z.leb_spec (sq (fst p)) 0); [lia|]. apply IH. intros q Hq. apply HP. now right. }
  rewrite K. unfold svp_finish, out_coord. cbn. destruct (out_aux _ _ _ _ _); [|discriminate]. intros H. now injection H as <- <- _.
Qed.
End Reports.

(** ** C59: the whole call in exact arithmetic *)
Local Open Scope Qc_scope.
(** [x]: coordinates of a shortest non-zero vector of the lattice spanned by the rows of B *)
Definition shortest (c : nat) (B : list (list Z)) (x : list Z) : Prop :=
  length x = length B /\ nonzero x /\ forall y, length y = length B -> nonzero y -> norm2 c (comb B x) <= norm2 c (comb B y).

Section Whole.
Variables (c : nat) (B : list (list Z)) (bs mu : nat -> nat -> Qc) (rec : bool) (ne : Z) (infl : Z -> Qc).
Notation d := (length B).
Notation r := (fun i => norm2 c (bs i)).
Notation d' := (last_useful_index d r).
Notation imd := (get_basis_min (row_sq c B) 0 d').
Hypothesis Hd : (0 < d)%nat.
Hypothesis Hc : (d <= c)%nat.
Hypothesis G : gso_of c B d bs mu.
Hypothesis Hr : forall i, (i < d)%nat -> 0 < norm2 c (bs i).
Hypothesis infl_ge : forall z, (0 <= z)%Z -> Qcz z <= infl z.
Hypothesis infl_mono : forall a b, (0 <= a <= b)%Z -> infl a <= infl b.

Lemma dims_ok : negb ((0 <? d)%nat && (0 <? c)%nat && (d <=? c)%nat) = false.
Proof. apply checks. lia. Qed.
Lemma pad_shortest x : length x = d' -> nonzero x -> (forall y, length y = d' -> nonzero y -> (coord_sq c B x <= coord_sq c B y)%Z) -> shortest c B (pad d d' x).
Proof.
  intros Lx NX MIN. split; [apply pad_length|]. split; [now apply pad_nonzero|].
  intros y Ly NY. rewrite <- !coord_sq_norm. apply Qcz_le. rewrite (pad_sq c B bs mu Hd G) by auto.
  now apply (short_all c B bs mu Hd G Hr).
Qed.

(** shortest_vector succeeds and returns a shortest vector, with either method and either enumeration, although
    it drops trailing rows and starts from the shortest basis vector. *)
Theorem shortest_vector_exact_correct method fuel res : svp_exact c B mu r rec ne fuel infl method = Some res ->
  exists x, res = SvpRet SvpSuccess x None /\ shortest c B x.
Proof.
  unfold svp_exact. rewrite dims_ok. destruct (svp_sols _ _ _ _ _ _ _ _ method 0) as [l|] eqn:S; [|discriminate]. intros H. injection H as <-.
  assert (K : exists q x, l = [(q, x)] /\ length x = d' /\ nonzero x /\ forall y, length y = d' -> nonzero y -> (coord_sq c B x <= coord_sq c B y)%Z).
  { destruct method.
    - destruct (fast_one c B bs mu rec ne infl Hd G Hr infl_ge fuel l S) as (x & A). eauto.
    - destruct (proved_one c B bs mu rec ne infl Hd G Hr infl_ge infl_mono fuel l S) as (x & A). eauto. }
  destruct K as (q & x & -> & Lx & NX & MIN). exists (pad d d' x). split; [|now apply pad_shortest].
  unfold svp_finish, out_coord, out_aux. cbn [rev app]. rewrite Lx, Nat.ltb_irrefl. reflexivity.
Qed.
Theorem shortest_vector_exact_terminates method : exists fuel res, svp_exact c B mu r rec ne fuel infl method = Some res.
Proof.
  destruct (sols_total c B bs mu rec ne infl Hd Hr infl_ge infl_mono method 0 ltac:(lia) ltac:(auto)) as (fuel & l & S).
  exists fuel. unfold svp_exact. rewrite dims_ok, S. eauto.
Qed.

(** shortest_vectors with method SVPM_FAST in exact arithmetic.  It looks only at coordinate vectors of the first d' rows
    and at vectors within the bound [infl imd], imd the squared length of the shortest basis vector. *)
Theorem shortest_vectors_exact_fast fuel old max_sols res : (2 <= max_sols < 2 ^ 31)%Z ->
  svps_exact c B mu r rec ne fuel infl SVPM_FAST old max_sols = Some res ->
  exists x0 out, res = SvpRet SvpSuccess x0 (Some out) /\ shortest c B x0 /\
    (1 <= length out <= Z.to_nat max_sols)%nat /\ StronglySorted (fun a b : Qc * list Z => fst a <= fst b) out /\
    (forall l x, In (l, x) out -> length x = d' /\ nonzero x /\ l = norm2 c (comb B x) /\ l <= infl imd /\ ~ In (neg x) (map snd out)) /\
    NoDup (map snd out) /\
    (forall y, length y = d' -> nonzero y -> norm2 c (comb B y) <= infl imd -> ~ In y (map snd out) -> ~ In (neg y) (map snd out) ->
       length out = Z.to_nat max_sols /\ forall l x, In (l, x) out -> l <= norm2 c (comb B y)).
Proof.
  intros HM. unfold svps_exact. rewrite dims_ok. destruct (svp_sols _ _ _ _ _ _ _ _ SVPM_FAST _) as [l|] eqn:S; [|discriminate]. intros H. injection H as <-.
  revert S. unfold svp_sols. destruct (run_enum qe_ops (eval_sol (q_fops ne) BestN _) _ _ _ _ _ _) as [s|] eqn:RN; [|discriminate]. cbn [option_map]. intros H. injection H as <-.
  destruct (nr_ok (max_sols - 1) ltac:(lia)) as [N1 N2]. set (N := nr_solutions (max_sols - 1)) in *.
  assert (NE : Z.to_nat max_sols = N) by (rewrite N1; f_equal; lia).
  pose proof (d'_range c B bs Hd) as RG.
  assert (H1 : (0 < d')%nat) by lia. assert (H2 : forall k, (k < d')%nat -> 0 < r k) by (intros k Hk; apply Hr; lia).
  assert (H3 : 0 <= infl imd) by (now apply (R_ok c B bs infl Hd infl_ge)).
  assert (EQ : enum_run rec fuel ne accept_all BestN N (enum_input d' mu r None [] false None (infl imd) ne) = Some s) by exact RN.
  destruct (enum_best_n d' mu r false (infl imd) ne N H1 H2 H3 N2 rec fuel s EQ) as (A1 & A2 & A3 & A4).
  assert (SRT : sorted (q_fops ne) (ev_sols (g_ev (s_g s)))).
  { destruct (best_facts d' mu r false (infl imd) ne N H1 H2 H3 N2 None rec fuel s EQ) as [_ _ _ _ _ [F6 _]].
    pose proof (replay_filter ne accept_all BestN N (ev_init (q_fops ne)) (infl imd * pow2 (- ne)) (g_log (s_g s))) as K. cbn zeta in K.
    rewrite F6 in K. cbn [fst snd] in K. destruct K as (K1 & _ & _).
    rewrite K1. refine (proj1 (store_all (q_fops ne) (q_asym ne) (q_trans ne) N N2 BestN _ ltac:(discriminate) (ev_init (q_fops ne)) _ [] _)).
    apply store_init; auto. }
  fold (kept s) in SRT |- *.
  assert (VL : forall x, length x = d' -> vlen d' mu r x = norm2 c (comb B x)).
  { intros x Lx. rewrite <- coord_sq_norm. now apply (vlen_d' c B bs mu Hd G). }
  assert (KNE : kept s <> []).
  { intros E0. destruct (argmin c B bs Hd) as (y & Ly & NY & SY).
    destruct (A4 y Ly NY) as [X _]; try (rewrite E0; cbn; tauto).
    - rewrite VL, <- coord_sq_norm, SY by auto. apply infl_ge. now apply (imd_nonneg c B bs Hd).
    - rewrite E0 in X. cbn in X. lia. }
  rewrite (finish_merge (q_fops ne)); [|intros [l x] Hp; destruct (A2 l x Hp) as [X _]; cbn [snd]; lia|lia].
  pose proof (sorted_rev (q_fops ne) _ SRT) as INC.
  destruct (rev (kept s)) as [|[l0 x0] t] eqn:R.
  { exfalso. apply KNE. apply (f_equal (@rev _)) in R. now rewrite rev_involutive in R. }
  assert (IO : forall p, In p ((l0, x0) :: t) <-> In p (kept s)) by (intros p; rewrite <- R; symmetry; apply in_rev).
  assert (IM : forall x, In x (map snd ((l0, x0) :: t)) <-> In x (map snd (kept s))) by (intros x; rewrite <- R, map_rev; symmetry; apply in_rev).
  destruct (A2 l0 x0) as (B1 & B2 & B3 & B4 & _); [apply IO; now left|].
  exists (pad d d' x0), ((l0, x0) :: t). split.
  { refine (eq_trans (f_equal (fun k : list (Qc * list Z) => SvpRet (f := q_fops ne) _ (match k with [] => repeat 0%Z d | (_, v) :: _ => pad d d' v end) (Some k)) R) _).
    cbn beta match. clear -KNE. destruct (kept s); [congruence|reflexivity]. }
  assert (LE : length ((l0, x0) :: t) = length (kept s)) by (rewrite <- R; apply rev_length).
  assert (INC' : StronglySorted (fun a b : Qc * list Z => fst a <= fst b) ((l0, x0) :: t)).
  { pose proof (eq_ind _ (fun k => increasing (q_fops ne) k) INC _ R) as INC0. clear -INC0. unfold increasing in INC0. revert INC0. generalize ((l0, x0) :: t : list (FT (q_fops ne) * list Z)). intros u INC.
    induction u as [|a u IH]; [constructor|]. apply StronglySorted_inv in INC as [HS HF]. constructor; [exact (IH HS)|].
    rewrite Forall_forall in *. intros p Hp. apply HF in Hp. apply eltb_ge in Hp. exact Hp. }
  split; [|split; [|split; [exact INC'|split; [|split]]]].
  - apply pad_shortest; auto. intros y Ly NY. apply Qcz_le. rewrite !coord_sq_norm.
    destruct (in_dec (list_eq_dec Z.eq_dec) y (map snd (kept s))) as [I|I];
      [|destruct (in_dec (list_eq_dec Z.eq_dec) (neg y) (map snd (kept s))) as [I'|I']].
    + apply IM in I. apply in_map_iff in I as ([l z] & EZ & I). cbn in EZ. subst z. destruct (A2 l y) as (_ & _ & C3 & _); [now apply IO|].
      rewrite <- !VL by auto. rewrite <- B3, <- C3. destruct I as [I|I]; [injection I as -> ->; apply Qcle_refl|].
      inversion INC' as [|? ? _ FA]; subst. rewrite Forall_forall in FA. exact (FA _ I).
    + apply IM in I'. apply in_map_iff in I' as ([l z] & EZ & I'). cbn in EZ. subst z. destruct (A2 l (neg y)) as (_ & _ & C3 & _); [now apply IO|].
      rewrite <- (coord_sq_norm c B y), <- (coord_sq_neg c B bs mu G), coord_sq_norm.
      rewrite <- !VL by (unfold neg; rewrite ?map_length; auto). rewrite <- B3, <- C3. destruct I' as [I'|I']; [injection I' as -> ->; apply Qcle_refl|].
      inversion INC' as [|? ? _ FA]; subst. rewrite Forall_forall in FA. exact (FA _ I').
    + rewrite <- !VL by auto. destruct (Qclt_le_dec (infl imd) (vlen d' mu r y)) as [L|L].
      * eapply Qcle_trans; [exact B4|]. now apply Qclt_le_weak.
      * destruct (A4 y Ly NY L I I') as [_ X]. apply (X l0 x0). apply IO. now left.
  - refine (eq_ind_r (fun k => (1 <= k <= Z.to_nat max_sols)%nat) _ LE). rewrite NE. split; [|exact A1]. destruct (kept s); [congruence|cbn; lia].
  - intros l x Hx. apply IO in Hx. destruct (A2 l x Hx) as (C1 & C2 & C3 & C4 & C5). split; auto. split; auto.
    rewrite VL in C3 by auto. split; auto. split; [rewrite C3; rewrite <- VL by auto; exact C4|]. intros X. apply C5. now apply IM.
  - refine (eq_ind _ (fun k : list (Qc * list Z) => NoDup (map snd k)) _ _ R). rewrite map_rev. apply NoDup_rev. exact A3.
  - intros y Ly NY LY N3 N4. destruct (A4 y Ly NY) as [X1 X2].
    + now rewrite VL.
    + intros X. apply N3. now apply IM.
    + intros X. apply N4. now apply IM.
    + split; [exact (eq_trans LE (eq_trans X1 (eq_sym NE)))|]. intros l x Hx. apply IO in Hx. destruct (A2 l x Hx) as (C1 & _ & C3 & _). rewrite C3. rewrite <- (VL y Ly). exact (X2 l x Hx).
Qed.

(** max_sols = 1: success, yet nothing is written to the outputs, for every lattice and both methods. *)
Theorem shortest_vectors_exact_one method fuel old res : svps_exact c B mu r rec ne fuel infl method old 1 = Some res ->
  exists x0, res = SvpRet SvpSuccess x0 (Some old) /\ shortest c B x0.
Proof.
  intros H. unfold svps_exact in H. rewrite dims_ok in H. change (1 - 1)%Z with 0%Z in H.
  destruct (svp_sols _ _ _ _ _ _ _ _ method 0) as [l|] eqn:S; [|discriminate]. injection H as <-.
  destruct (shortest_vector_exact_correct method fuel (svp_finish (q_fops ne) d d' l None 0 false)) as (x & E0 & SX).
  { unfold svp_exact. rewrite dims_ok, S. reflexivity. }
  exists x. split; auto. unfold svp_finish, out_aux in *. destruct (out_coord _ _ _ l) as [[st y]|]; [|discriminate]. cbn in *. now injection E0 as -> ->.
Qed.
End Whole.

(** last_useful_index on floating-point values r' of the diagonal: relative error up to one third is harmless.  No
    vector at most as long as the first basis vector needs a dropped row. *)
Theorem last_useful_index_approx c B bs mu r' : let d := length B in
  (0 < d)%nat -> gso_of c B d bs mu -> (forall i, (i < d)%nat -> 0 < norm2 c (bs i)) ->
  (forall i, (i < d)%nat -> Qcz 2 * norm2 c (bs i) <= Qcz 3 * r' i <= Qcz 4 * norm2 c (bs i)) ->
  (1 <= last_useful_index d r' <= d)%nat /\
  forall y, length y = d -> norm2 c (comb B y) <= norm2 c (comb B (unitv d 0)) -> forall j, (last_useful_index d r' <= j)%nat -> nth j y 0%Z = 0%Z.
Proof.
  intros d Hd G Hr HA. destruct (lui_spec d r' Hd) as [L1 L2]. split; auto. intros y Ly HY j Hj.
  apply (tail_zero d mu (fun i => norm2 c (bs i)) y (last_useful_index d r') (norm2 c (bs 0%nat))); auto; [lia| |].
  - intros k Hk. specialize (L2 k Hk). destruct (HA k ltac:(lia)) as [_ A2]. destruct (HA 0%nat ltac:(lia)) as [A1 _]. specialize (Hr 0%nat Hd).
    revert L2 A2 A1 Hr. generalize (r' k) (r' 0%nat) (norm2 c (bs k)) (norm2 c (bs 0%nat)). intros a b e0 e1. change (Qcz 2) with (1+1). change (Qcz 3) with (1+1+1). change (Qcz 4) with (1+1+(1+1)). intros. qclra.
  - rewrite <- !coord_sq_norm in HY. rewrite (unitv_sq c B Hd d 0) in HY by lia. rewrite (row0 c B bs mu Hd G) in HY.
    rewrite (coord_sq_vlen c B bs mu G) in HY. exact HY.
Qed.

(** ** Refutations *)
(** C47 as stated: "on success at least one vector in the outputs".  max_sols = 1, rows (3,1,0), (1,2,2), (0,-2,5). *)
Theorem shortest_vectors_one_refuted : exists c B method fuel x0,
  svps_exact c B (qM c B) (fun i => norm2 c (qS c B i)) true 2 fuel Qcz method [] 1 = Some (SvpRet SvpSuccess x0 (Some [])).
Proof.
  assert (R : exists res, svps_exact 3 ex_B (qM 3 ex_B) (fun i => norm2 3 (qS 3 ex_B i)) true 2 50 Qcz SVPM_FAST [] 1 = Some res).
  { destruct (svps_exact 3 ex_B (qM 3 ex_B) (fun i => norm2 3 (qS 3 ex_B i)) true 2 50 Qcz SVPM_FAST [] 1) as [res|] eqn:E; [eauto|].
    exfalso. apply (f_equal (fun o => match o with Some _ => true | None => false end)) in E. vm_compute in E. discriminate. }
  destruct R as [res R]. exists 3%nat, ex_B, SVPM_FAST, 50%nat.
  destruct (shortest_vectors_exact_one 3 ex_B (qS 3 ex_B) (qM 3 ex_B) true 2 Qcz) with (method := SVPM_FAST) (fuel := 50%nat) (old := @nil (FT (q_fops 2) * list Z)) (res := res) as (x & -> & _); auto.
  - cbn; lia.
  - apply qS_gso.
  - intros [|[|[|i]]] Hi; try (cbn in Hi; lia); vm_compute; reflexivity.
  - intros. apply Qcle_refl.
  - intros a b H. apply Qcz_le. lia.
  - exists x. exact R.
Qed.
(** "the max_sols shortest vectors": with rows (4,0), (0,5) and max_sols = 2 one vector is returned, and with rows (1,0), (0,10)
    its coordinate vector has one entry for a lattice of rank two. *)
Definition show_out {ne} (o : option (svp_res (q_fops ne))) : option (svp_status * list Z * list (Q * list Z)) :=
  match o with Some (SvpRet st x (Some out)) => Some (st, x, map (fun p => (this (fst p), snd p)) out) | _ => None end.
Definition svps_ex (rec : bool) (c : nat) (B : list (list Z)) (method : svp_method) (k : Z) :=
  show_out (svps_exact c B (qM c B) (fun i => norm2 c (qS c B i)) rec 2 (if rec then 60 else 600)%nat Qcz method [] k).
Theorem shortest_vectors_few_refuted :
  svps_ex true 2 [[4; 0]; [0; 5]]%Z SVPM_FAST 2 = Some (SvpSuccess, [1; 0]%Z, [((16 # 1)%Q, [1; 0]%Z)]) /\
  svps_ex true 2 [[1; 0]; [0; 10]]%Z SVPM_FAST 2 = Some (SvpSuccess, [1; 0]%Z, [((1 # 1)%Q, [1]%Z)]).
Proof. split; vm_compute; reflexivity. Qed.
(** SVPM_PROVED keeps fewer reports than SVPM_FAST: reports of squared length 1 and then 2, max_sols = 2. *)
Definition zsq (v : list Z) : Z := fold_left (fun a x => (a + x * x)%Z) v 0%Z.
Definition z_reports : list (list Z * Z) := [([1; 0]%Z, 1%Z); ([1; 1]%Z, 2%Z)].
Theorem shortest_vectors_proved_fewer_refuted : exists found,
  shortest_vectors z_fops zsq (fun z => Some z) SVPM_FAST 2 2 2 found 5%Z 5 [] 2 = SvpRet (f := z_fops) SvpSuccess [] (Some [(1, [1; 0]); (2, [1; 1])]%Z) /\
  shortest_vectors z_fops zsq (fun z => Some z) SVPM_PROVED 2 2 2 found 5%Z 5 [] 2 = SvpRet (f := z_fops) SvpSuccess [] (Some [(1, [1; 0])]%Z).
Proof. exists z_reports. split; reflexivity. Qed.
(** auxiliary solutions asked for, nothing found: undefined behaviour, both calls otherwise legal *)
Theorem shortest_vector_aux_refuted : exists d n max_aux, (1 <= d <= n)%nat /\ (0 < max_aux < 2 ^ 31 - 1)%Z /\
  shortest_vector_aux z_fops zsq (fun z => Some z) d n d [] 1%Z [] max_aux = SvpUndef.
Proof. exists 2%nat, 2%nat, 3%Z. split; [lia|]. split; [lia|]. apply shortest_vector_aux_empty_undefined; lia. Qed.
(** dual SVP with SVPM_PROVED: two reports, failure all the same *)
Theorem svp_dual_proved_refuted : exists found, found <> [] /\
  shortest_vector_ex z_fops zsq (fun z => Some z) SVPM_PROVED 2 2 2 found 5%Z 0 None 0 false = SvpRet (f := z_fops) SvpEnumFailure [0; 0]%Z None /\
  shortest_vector_ex z_fops zsq (fun z => Some z) SVPM_FAST 2 2 2 found 5%Z 0 None 0 false = SvpRet (f := z_fops) SvpSuccess [1; 0]%Z None.
Proof. exists z_reports. split; [discriminate|]. split; reflexivity. Qed.

(** ** Examples *)
(** four reports, three wanted, in the order of length; hypotheses of the report theorems *)
Definition z_four : list (list Z * Z) := [([2; 1]%Z, 5%Z); ([1; 1]%Z, 2%Z); ([0; 2]%Z, 4%Z); ([1; 0]%Z, 1%Z)].
Example fast_outputs_ex : (1 <= 2 <= 2)%nat /\ (2 <= 3 < 2 ^ 31)%Z /\ (forall p, In p z_four -> (2 <= length (fst p))%nat) /\
  shortest_vectors z_fops zsq (fun z => Some z) SVPM_FAST 2 2 2 z_four 9%Z 9 [] 3 = SvpRet (f := z_fops) SvpSuccess [] (Some [(1, [1; 0]); (2, [1; 1]); (4, [0; 2])]%Z).
Proof. split; [lia|]. split; [lia|]. split; [|reflexivity]. intros p [<-|[<-|[<-|[<-|[]]]]]; cbn; lia. Qed.
Example proved_outputs_ex : (forall a b, (0 <= a <= b)%Z -> f_lt z_fops b a = false) /\ (forall v, 0 <= zsq v)%Z /\
  records zsq 9 (map fst z_four) = [[2; 1]; [1; 1]; [1; 0]]%Z /\
  shortest_vectors z_fops zsq (fun z => Some z) SVPM_PROVED 2 2 2 z_four 9%Z 9 [] 3 = SvpRet (f := z_fops) SvpSuccess [] (Some [(1, [1; 0]); (2, [1; 1]); (5, [2; 1])]%Z).
Proof.
  split; [intros a b H; cbn; apply Z.ltb_ge; lia|]. split; [|split; reflexivity].
  assert (K : forall v a, (0 <= a)%Z -> (0 <= fold_left (fun a x => (a + x * x)%Z) v a)%Z) by (induction v; cbn; intros; auto; apply IHv; nia).
  intros v. apply K. lia.
Qed.
Example one_unchanged_ex : shortest_vectors z_fops zsq (fun z => Some z) SVPM_FAST 2 2 2 z_four 9%Z 9 [(7, [7; 7])]%Z 1 = SvpRet (f := z_fops) SvpSuccess [] (Some [(7, [7; 7])]%Z).
Proof. reflexivity. Qed.
Example aux_outputs_ex : shortest_vector_aux z_fops zsq (fun z => Some z) 3 3 2 z_four 9%Z [] 2 = SvpRet (f := z_fops) SvpSuccess [1; 0; 0]%Z (Some [(2, [1; 1]); (4, [0; 2])]%Z).
Proof. reflexivity. Qed.

(** C59: rows (3,1,0), (1,2,2), (0,-2,5) and (1,1,0,0), (0,1,1,0), (3,0,4,9): a dropped last row *)
Definition svp_ex (rec : bool) (c : nat) (B : list (list Z)) (method : svp_method) : option (svp_status * list Z) :=
  match svp_exact c B (qM c B) (fun i => norm2 c (qS c B i)) rec 2 (if rec then 60 else 600)%nat (fun z => Qcz z + Q2Qc (1 # 8)) method with
  | Some (SvpRet st x None) => Some (st, x) | _ => None end.
Example svp_exact_ex : svp_ex true 3 ex_B SVPM_FAST = Some (SvpSuccess, [0; 1; 0]%Z) /\ svp_ex true 3 ex_B SVPM_PROVED = Some (SvpSuccess, [0; 1; 0]%Z) /\
  svp_ex false 3 ex_B SVPM_FAST = Some (SvpSuccess, [0; 1; 0]%Z) /\ svp_ex false 3 ex_B SVPM_PROVED = Some (SvpSuccess, [0; 1; 0]%Z).
Proof. repeat split; vm_compute; reflexivity. Qed.
Definition drop_B : list (list Z) := [[1; 1; 2; 0]; [2; 1; 1; 0]; [3; 0; 4; 9]]%Z.
Example svp_drop_ex : last_useful_index 3 (fun i => norm2 4 (qS 4 drop_B i)) = 2%nat /\
  svp_ex true 4 drop_B SVPM_FAST = Some (SvpSuccess, [-1; 1; 0]%Z) /\ svp_ex false 4 drop_B SVPM_PROVED = Some (SvpSuccess, [-1; 1; 0]%Z).
Proof. repeat split; vm_compute; reflexivity. Qed.
Example svp_hyps : (0 < length drop_B)%nat /\ (length drop_B <= 4)%nat /\ gso_of 4 drop_B 3 (qS 4 drop_B) (qM 4 drop_B) /\
  (forall i, (i < 3)%nat -> 0 < norm2 4 (qS 4 drop_B i)) /\ (forall z, (0 <= z)%Z -> Qcz z <= Qcz z + Q2Qc (1 # 8)) /\
  (forall a b, (0 <= a <= b)%Z -> Qcz a + Q2Qc (1 # 8) <= Qcz b + Q2Qc (1 # 8)).
Proof.
  split; [cbn; lia|]. split; [cbn; lia|]. split; [apply qS_gso|]. split; [intros [|[|[|i]]] Hi; try lia; vm_compute; reflexivity|].
  assert (P : 0 <= Q2Qc (1 # 8)) by (vm_compute; discriminate).
  split; [intros z _|intros a b H; assert (H' : Qcz a <= Qcz b) by (apply Qcz_le; lia); revert H'; generalize (Qcz a), (Qcz b)]; revert P; generalize (Q2Qc (1 # 8)); try generalize (Qcz z); intros; qclra.
Qed.
Example svps_fast_ex : svps_ex true 3 [[2; 1; 0]; [1; 2; 0]; [0; 1; 2]]%Z SVPM_FAST 3 = svps_ex false 3 [[2; 1; 0]; [1; 2; 0]; [0; 1; 2]]%Z SVPM_FAST 3 /\
  svps_ex true 3 [[2; 1; 0]; [1; 2; 0]; [0; 1; 2]]%Z SVPM_FAST 3 = Some (SvpSuccess, [-1; 1; 0]%Z, [((2 # 1)%Q, [-1; 1; 0]%Z); ((5 # 1)%Q, [0; 0; 1]%Z); ((5 # 1)%Q, [1; -1; 1]%Z)]).
Proof. split; vm_compute; reflexivity. Qed.
Example approx_ex :
  (forall i, (i < 2)%nat -> Qcz 2 * norm2 4 (qS 4 (firstn 2 drop_B) i) <= Qcz 3 * (fun i => nth i [Qcz 6; Q2Qc (11 # 6)] 0) i <= Qcz 4 * norm2 4 (qS 4 (firstn 2 drop_B) i)).
Proof. intros [|[|i]] Hi; try lia; split; vm_compute; discriminate. Qed.

Print Assumptions shortest_vectors_fast_outputs.
Print Assumptions shortest_vectors_proved_outputs.
Print Assumptions shortest_vectors_one_refuted.
Print Assumptions shortest_vector_aux_outputs.
Print Assumptions svp_dual_proved_fails.
Print Assumptions shortest_vector_exact_correct.
Print Assumptions shortest_vector_exact_terminates.
Print Assumptions shortest_vectors_exact_fast.
Print Assumptions last_useful_index_approx.
