(** Dual enumeration in exact arithmetic (enumerate.cpp:98-142, enumerate_base.cpp:58-64 with dual = true): a run of the
    enumeration with the dual centre formula makes the same reports as a primal run with the inverse coefficients.
    Not part of the model (proofs for PropEnumDual.v). *)
From Coq Require Import List ZArith QArith Qcanon Arith Bool Lia.
From Verif Require Import Util QcUtil GsoQ EnumModel EnumPure EnumRefine EnumTop EnumExact EnumTree EnumSpec EnumLink EvalModel EvalProofs EnumCall PropEnum BkzDualModel.
Import ListNotations.
Local Open Scope Qc_scope.

(** ** the cache-free run depends on the matrix only through the centres *)
Section Congr.
Context (o : eops) {EV : Type}.
Variable evalS : list Z -> E o -> E o -> EV -> EV * E o.
Variable evalSub : nat -> list Z -> E o -> EV -> EV.
Variable rst : list Z -> nat -> option (option (list Z * E o)).
Variables (c c' : ecfg o).
Hypothesis Hd : c_d c' = c_d c.
Hypothesis Hke : c_kend c' = c_kend c.
Hypothesis Hrd : forall k, (k < c_kend c)%nat -> c_rdiag c' k = c_rdiag c k.
Hypothesis Hsv : c_svp c' = c_svp c.
Hypothesis Hfs : c_findsub c' = c_findsub c.
Hypothesis Hre : c_reset c' = c_reset c.
Hypothesis Hrdp : c_rdepth c' = c_rdepth c.
Hypothesis Hpr : c_prune c' = c_prune c.
Hypothesis Hcen : forall k sfx, (k + S (length sfx) = c_kend c)%nat -> cen o c' k sfx = cen o c k sfx.

(** the same state up to the representation of the array of subsolution lengths *)
Record geq (g' g : gst o EV) : Prop := {
  q_max : g_max g' = g_max g; q_bounds : g_bounds g' = g_bounds g; q_subd : forall i, (i < c_kend c)%nat -> g_subd g' i = g_subd g i;
  q_nodes : g_nodes g' = g_nodes g; q_ev : g_ev g' = g_ev g; q_log : g_log g' = g_log g }.
Definition oeq (a b : option (gst o EV)) : Prop :=
  match a, b with None, None => True | Some g', Some g => geq g' g | _, _ => False end.
Definition beq (a b : option (bool * gst o EV)) : Prop :=
  match a, b with None, None => True | Some (x', g'), Some (x, g) => x' = x /\ geq g' g | _, _ => False end.

Lemma gsol_congr v nd g' g : geq g' g -> geq (gsol o evalS c' v nd g') (gsol o evalS c v nd g).
Proof.
  intros [Q1 Q2 Q3 Q4 Q5 Q6]. unfold gsol. rewrite Q1, Q5. destruct (evalS v nd (g_max g) (g_ev g)).
  constructor; cbn [g_max g_bounds g_subd g_nodes g_ev g_log]; auto; [|congruence]. unfold set_bounds. rewrite Hpr, Hd, Q2. reflexivity.
Qed.
Lemma gvisit_congr kk g' g : geq g' g -> geq (gvisit o kk g') (gvisit o kk g).
Proof. intros [Q1 Q2 Q3 Q4 Q5 Q6]. constructor; cbn [gvisit g_max g_bounds g_subd g_nodes g_ev g_log]; auto. now rewrite Q4. Qed.
Lemma gsub_congr kk v nd g' g : (kk < c_kend c)%nat -> geq g' g -> geq (gsubmaybe o evalSub c' kk v nd g') (gsubmaybe o evalSub c kk v nd g).
Proof.
  intros Hk HG. unfold gsubmaybe. destruct HG as [Q1 Q2 Q3 Q4 Q5 Q6]. rewrite Hfs, (Q3 kk Hk). destruct (_ && _ && _); [|constructor; auto].
  unfold gsub. constructor; cbn [g_max g_bounds g_subd g_nodes g_ev g_log]; auto; [|congruence|congruence].
  intros i Hi. unfold fset. destruct (Nat.eqb i kk); auto.
Qed.
Lemma plev_congr rec tl fuel : forall L sfx pd x dx ddx g' g, (L + length sfx = c_kend c)%nat -> geq g' g ->
  oeq (plev o evalS evalSub c' rst rec tl fuel L sfx pd x dx ddx g') (plev o evalS evalSub c rst rec tl fuel L sfx pd x dx ddx g).
Proof.
  induction L as [|kk IH]; intros sfx pd x dx ddx g' g HL HG; [exact HG|]. cbn [plev].
  revert x dx ddx g' g HG. generalize true as first. induction (S fuel) as [|n IHn]; intros first x dx ddx g' g HG; [exact I|]. cbn [ploop].
  rewrite Hrd, Hcen by lia. rewrite (q_bounds _ _ HG).
  destruct (negb (e_le o (e_dist o pd (e_alpha o x (cen o c kk sfx)) (c_rdiag c kk)) (g_bounds g kk))); [exact HG|].
  assert (EN : forall nd, beq (pnode o evalS evalSub c' rst rec tl (plev o evalS evalSub c' rst rec tl fuel kk) kk sfx first x nd g')
    (pnode o evalS evalSub c rst rec tl (plev o evalS evalSub c rst rec tl fuel kk) kk sfx first x nd g)).
  { intros nd. unfold pnode.
    assert (G2 : geq (if subany rec first then gsubmaybe o evalSub c' kk (repeat 0%Z kk ++ x :: sfx ++ tl) nd (gvisit o kk g') else gvisit o kk g')
                     (if subany rec first then gsubmaybe o evalSub c kk (repeat 0%Z kk ++ x :: sfx ++ tl) nd (gvisit o kk g) else gvisit o kk g)).
    { destruct (subany rec first); [apply gsub_congr; [lia|]|]; apply gvisit_congr; auto. }
    revert G2. generalize (if subany rec first then gsubmaybe o evalSub c' kk (repeat 0%Z kk ++ x :: sfx ++ tl) nd (gvisit o kk g') else gvisit o kk g').
    generalize (if subany rec first then gsubmaybe o evalSub c kk (repeat 0%Z kk ++ x :: sfx ++ tl) nd (gvisit o kk g) else gvisit o kk g). intros g2 g2' G2.
    assert (EP : forall b dep s, beq (option_map (pair b) (preset o evalS c' rst tl nd dep s g2')) (option_map (pair b) (preset o evalS c rst tl nd dep s g2))).
    { intros. unfold preset. destruct (rst (s ++ tl) dep) as [[[sol sd]|]|]; cbn [option_map beq]; auto.
      rewrite (q_bounds _ _ G2). destruct (e_lt o (e_add o sd nd) (g_bounds g2 0)); cbn [option_map beq]; auto. split; auto. apply gsol_congr; auto. }
    rewrite Hre, Hrdp. destruct kk as [|p].
    - unfold gleaf. rewrite Hsv. cbn [beq]. split; auto. destruct (_ || _); auto. apply gsol_congr; auto.
    - destruct (_ && _ && _ && _); [apply EP|]. destruct (_ && _ && _); [apply EP|]. rewrite Hcen by (cbn [length]; lia).
      match goal with |- beq (option_map _ (?f' ?a1 ?a2 ?a3 ?a4 ?a5 g2')) (option_map _ (?f _ _ _ _ _ g2)) =>
        pose proof (IH a1 a2 a3 a4 a5 g2' g2 ltac:(cbn [length]; lia) G2) as Y end.
      unfold oeq in Y. destruct (plev o evalS evalSub c' rst rec tl fuel (S p) _ _ _ _ _ g2'), (plev o evalS evalSub c rst rec tl fuel (S p) _ _ _ _ _ g2); cbn [option_map beq]; auto. }
  specialize (EN (e_dist o pd (e_alpha o x (cen o c kk sfx)) (c_rdiag c kk))). unfold beq in EN.
  destruct (pnode o evalS evalSub c' _ _ _ _ _ _ _ _ _ _) as [[b' h']|], (pnode o evalS evalSub c _ _ _ _ _ _ _ _ _ _) as [[b h]|]; auto; try contradiction; try (destruct b'; contradiction).
  destruct EN as [-> EH]. destruct b; [exact EH|].
  assert (ES : pstep o c' pd x dx ddx = pstep o c pd x dx ddx) by (unfold pstep; rewrite Hsv; reflexivity).
  rewrite ES. destruct (pstep o c pd x dx ddx) as [[x' dx'] ddx']. apply IHn. exact EH.
Qed.
End Congr.

(** ** without target and subtree prepare_enumeration goes down to level 0 *)
Lemma prep_zero (inp : einput qe_ops) : i_target inp = None -> i_subtree inp = [] -> 0 <= i_maxdist inp ->
  exists q, prepared qe_ops inp = (0%nat, q).
Proof.
  intros HT HS HM. unfold prepared. rewrite HS. cbn [length]. rewrite Nat.sub_0_r.
  assert (H : forall n (q : pst qe_ops), (n <= i_d inp)%nat -> (forall i, p_cp q i = 0) -> p_nd q = 0 ->
    (forall j, (n <= j < i_d inp)%nat -> p_alpha q j = 0 /\ p_x q j = 0%Z) ->
    exists q', prep_loop qe_ops (i_d inp) (i_mut inp) (i_rdiag inp) (i_dual inp) [] (i_subreset inp) (i_maxdist inp) n q = (0%nat, q')).
  { induction n as [|k IH]; intros q Hn Hcp Hnd Hal; [eexists; reflexivity|]. cbn [prep_loop].
    assert (LE : e_le qe_ops (p_nd q) (i_maxdist inp) = true) by (cbn [e_le qe_ops]; apply eleb_le; rewrite Hnd; exact HM).
    rewrite LE.
    assert (PC : prep_center qe_ops (i_d inp) (i_mut inp) (i_dual inp) q k = 0).
    { unfold prep_center. rewrite Hcp.
      assert (X : forall l, (forall j, In j l -> (k < j < i_d inp)%nat) ->
        fold_left (fun ce j => if i_dual inp then e_suba qe_ops ce (p_alpha q j) (i_mut inp k j) else e_subx qe_ops ce (p_x q j) (i_mut inp k j)) l (0 : Qc) = 0).
      { induction l as [|j l IHl]; intros Hl; [reflexivity|]. cbn [fold_left].
        destruct (Hal j) as [A1 A2]; [specialize (Hl j (or_introl eq_refl)); lia|]. cbn [e_suba e_subx qe_ops] in *. rewrite A1, A2.
        match goal with |- fold_left _ _ ?t = _ => assert (E : @eq Qc t 0) by (destruct (i_dual inp); rewrite ?Qcz_0; ring); rewrite E end.
        apply IHl. intros; apply Hl; now right. }
      apply X. intros j Hj. apply in_seq in Hj. lia. }
    apply IH; [lia| | |].
    - intros i. unfold prep_step. destruct (Nat.leb_spec (i_d inp) k); [lia|]. destruct (_ || _); cbn [p_cp]; apply Hcp.
    - unfold prep_step. destruct (Nat.leb_spec (i_d inp) k); [lia|]. rewrite PC.
      destruct (_ || _) eqn:X; cbn [p_nd p_x e_dist e_alpha e_round qe_ops]; [|exact Hnd]. rewrite EnumRefine.fset_eq, Hnd.
      match goal with |- context [Qcz ?z] => replace (Qcz z) with 0 by (symmetry; vm_compute; apply Qc_is_canon; reflexivity) end.
      match goal with |- ?a = ?b => change (@eq Qc a b) end. ring.
    - intros j Hj. unfold prep_step. destruct (Nat.leb_spec (i_d inp) k); [lia|]. rewrite PC.
      assert (LT : (k <? i_d inp)%nat = true) by (apply Nat.ltb_lt; lia). rewrite LT, orb_true_r. cbn [p_alpha p_x e_alpha e_round qe_ops].
      destruct (Nat.eq_dec j k) as [->|Hne].
      + rewrite !EnumRefine.fset_eq. split; [|vm_compute; reflexivity].
        match goal with |- context [Qcz ?z] => replace (Qcz z) with 0 by (symmetry; vm_compute; apply Qc_is_canon; reflexivity) end.
        match goal with |- ?a = ?b => change (@eq Qc a b) end. ring.
      + rewrite !EnumRefine.fset_neq by auto. apply Hal. lia. }
  apply H; [lia| | |intros; lia]; intros; unfold junkp; rewrite ?HT; reflexivity.
Qed.

(** ** the inverse coefficients *)
Section Inv.
Variables (d : nat) (m : nat -> nat -> Qc).
(** solution of  a_k = x_k + sum_{l > k} m_kl a_l *)
Fixpoint af (f : nat) (x : nat -> Qc) (k : nat) : Qc :=
  match f with O => 0 | S f' => x k + sfrom d (S k) (fun l => m k l * af f' x l) end.
Definition al (x : nat -> Qc) (k : nat) : Qc := af (d - k) x k.
Lemma af_fuel x : forall f f' k, (d - k <= f)%nat -> (d - k <= f')%nat -> (k < d)%nat -> af f x k = af f' x k.
Proof.
  induction f as [|f IH]; intros f' k H1 H2 H3; [lia|]. destruct f' as [|f']; [lia|]. cbn [af]. f_equal. unfold sfrom. apply qsum_ext.
  intros l Hl. destruct (Nat.leb_spec (S k) l); auto. rewrite (IH f') by lia. reflexivity.
Qed.
Lemma al_eq x k : (k < d)%nat -> al x k = x k + sfrom d (S k) (fun l => m k l * al x l).
Proof.
  intros Hk. unfold al at 1. destruct (d - k)%nat as [|f] eqn:E; [lia|]. cbn [af]. f_equal. unfold sfrom. apply qsum_ext.
  intros l Hl. destruct (Nat.leb_spec (S k) l); auto. unfold al. rewrite (af_fuel x f (d - l)) by lia. reflexivity.
Qed.
(** the only solution *)
Lemma al_unique x (a : nat -> Qc) : (forall k, (k < d)%nat -> a k = x k + sfrom d (S k) (fun l => m k l * a l)) -> forall k, (k < d)%nat -> a k = al x k.
Proof.
  intros H. assert (X : forall n k, (d - k <= n)%nat -> (k < d)%nat -> a k = al x k).
  { induction n as [|n IH]; intros k H1 H2; [lia|]. rewrite H, al_eq by auto. f_equal. unfold sfrom. apply qsum_ext.
    intros l Hl. destruct (Nat.leb_spec (S k) l); auto. rewrite IH by lia. reflexivity. }
  intros k Hk. apply (X (d - k)%nat); auto.
Qed.
Definition unitv (j : nat) (i : nat) : Qc := if (i =? j)%nat then 1 else 0.
(** the inverse coefficients: nu_jk = the k-th value for the unit vector j *)
Definition nu (j k : nat) : Qc := al (unitv j) k.
Lemma nu_low j k : (j < k)%nat -> (k < d)%nat -> nu j k = 0.
Proof.
  intros Hj Hk. assert (X : forall n k, (d - k <= n)%nat -> (j < k)%nat -> (k < d)%nat -> nu j k = 0).
  { induction n as [|n IH]; intros k' H1 H2 H3; [lia|]. unfold nu. rewrite al_eq by auto. unfold sfrom. rewrite qsum_0.
    - unfold unitv. destruct (Nat.eqb_spec k' j); [lia|ring].
    - intros l Hl. destruct (Nat.leb_spec (S k') l); auto. change (al (unitv j) l) with (nu j l). rewrite IH by lia. ring. }
  apply (X (d - k)%nat); auto.
Qed.
Lemma nu_diag j : (j < d)%nat -> nu j j = 1.
Proof.
  intros Hj. unfold nu. rewrite al_eq by auto. unfold sfrom. rewrite qsum_0.
  - unfold unitv. rewrite Nat.eqb_refl. ring.
  - intros l Hl. destruct (Nat.leb_spec (S j) l); auto. change (al (unitv j) l) with (nu j l). rewrite nu_low by lia. ring.
Qed.
Lemma al_lin x k : (k < d)%nat -> al x k = qsum d (fun j => x j * nu j k).
Proof.
  intros Hk. symmetry. apply (al_unique x (fun k => qsum d (fun j => x j * nu j k))); auto. clear k Hk. intros k Hk.
  rewrite (qsum_ext d _ (fun j => x j * unitv j k + x j * sfrom d (S k) (fun l => m k l * nu j l))).
  - rewrite qsum_plus. f_equal.
    + rewrite (qsum_single d k); auto; [unfold unitv; rewrite Nat.eqb_refl; ring|]. intros i Hi Hne. unfold unitv. destruct (Nat.eqb_spec k i); [congruence|ring].
    + unfold sfrom. rewrite (qsum_ext d _ (fun j => qsum d (fun l => if (S k <=? l)%nat then x j * (m k l * nu j l) else 0))).
      * rewrite qsum_swap. apply qsum_ext. intros l Hl. destruct (Nat.leb_spec (S k) l); [|apply qsum_0; auto].
        rewrite <- qsum_scal. apply qsum_ext. intros. ring.
      * intros j Hj. rewrite <- qsum_scal. apply qsum_ext. intros l Hl. destruct (S k <=? l)%nat; ring.
  - intros j Hj. unfold nu at 1. rewrite al_eq by auto. rewrite Qcmult_plus_distr_r. reflexivity.
Qed.
(** in terms of the enumeration's coordinates *)
Lemma gcoord_nu x k : (k < d)%nat -> gcoord d nu no_target x k = al (fun i => Qcz (nth i x 0%Z)) k.
Proof.
  intros Hk. rewrite al_lin by auto. unfold gcoord, no_target. 
  assert (E : qsum d (fun j => Qcz (nth j x 0%Z) * nu j k) = qsum d (fun j => (if (j =? k)%nat then Qcz (nth j x 0%Z) else 0) + (if (k <? j)%nat then Qcz (nth j x 0%Z) * nu j k else 0))).
  { apply qsum_ext. intros j Hj. destruct (Nat.eqb_spec j k) as [->|Hne].
    - rewrite Nat.ltb_irrefl, nu_diag by auto. ring.
    - destruct (Nat.ltb_spec k j); [ring|]. rewrite nu_low by lia. ring. }
  rewrite E, qsum_plus, (qsum_single d k (fun j => if (j =? k)%nat then Qcz (nth j x 0%Z) else 0)); [|auto|intros i Hi Hne; destruct (Nat.eqb_spec i k); [congruence|reflexivity]].
  rewrite Nat.eqb_refl. ring.
Qed.
End Inv.

(** ** the centres *)
Section Cen.
Variables (d : nat) (m : nat -> nat -> Qc).
Variables (c c' : ecfg qe_ops).
Hypothesis Hk : c_kend c = d.
Hypothesis Hk' : c_kend c' = d.
Hypothesis Hdu : c_dual c = true.
Hypothesis Hdu' : c_dual c' = false.
Hypothesis Hm : c_mut c = m.
Hypothesis Hm' : c_mut c' = fun i j => nu d m j i.
Hypothesis H0 : forall i, c_cps0 c i = 0.
Hypothesis H0' : forall i, c_cps0 c' i = 0.

(** coordinates x_j, ... padded with zeros below *)
Definition pad (j : nat) (sfx : list Z) : list Z := repeat 0%Z j ++ sfx.
Lemma csum_prim : forall sfx i j, (j + length sfx = d)%nat ->
  csum qe_ops c' i j sfx = - sfrom d j (fun l => Qcz (nth l (pad j sfx) 0%Z) * nu d m l i).
Proof.
  induction sfx as [|x t IH]; intros i j HL; cbn [csum length] in *.
  - rewrite H0', sfrom_end by lia. match goal with |- ?a = ?b => change (@eq Qc a b) end. ring.
  - rewrite Hdu', Hm'. cbn [e_subx qe_ops]. rewrite IH by lia. rewrite (sfrom_step d j) by lia.
    assert (N1 : nth j (pad j (x :: t)) 0%Z = x) by (unfold pad; rewrite app_nth2, repeat_length, Nat.sub_diag by (rewrite repeat_length; lia); reflexivity).
    assert (N2 : sfrom d (S j) (fun l => Qcz (nth l (pad (S j) t) 0%Z) * nu d m l i) = sfrom d (S j) (fun l => Qcz (nth l (pad j (x :: t)) 0%Z) * nu d m l i)).
    { unfold sfrom. apply qsum_ext. intros l Hl. destruct (Nat.leb_spec (S j) l); auto. do 2 f_equal. unfold pad.
      rewrite !app_nth2 by (rewrite repeat_length; lia). rewrite !repeat_length. replace (l - j)%nat with (S (l - S j)) by lia. reflexivity. }
    rewrite N1, N2. match goal with |- ?a = ?b => change (@eq Qc a b) end. ring.
Qed.
Lemma csum_dual_al : forall sfx i j, (j + length sfx = d)%nat ->
  csum qe_ops c i j sfx = - sfrom d j (fun l => m i l * al d m (fun i => Qcz (nth i (pad j sfx) 0%Z)) l).
Proof.
  induction sfx as [|x t IH]; intros i j HL; cbn [csum length] in *.
  - rewrite H0, sfrom_end by lia. match goal with |- ?a = ?b => change (@eq Qc a b) end. ring.
  - rewrite Hdu, Hm. cbn [e_suba e_alpha qe_ops]. rewrite !IH by lia. rewrite (sfrom_step d j) by lia.
    assert (N1 : nth j (pad j (x :: t)) 0%Z = x) by (unfold pad; rewrite app_nth2, repeat_length, Nat.sub_diag by (rewrite repeat_length; lia); reflexivity).
    assert (N2 : forall l, (S j <= l < d)%nat -> al d m (fun i => Qcz (nth i (pad (S j) t) 0%Z)) l = al d m (fun i => Qcz (nth i (pad j (x :: t)) 0%Z)) l).
    { assert (X : forall n l, (d - l <= n)%nat -> (S j <= l < d)%nat -> al d m (fun i => Qcz (nth i (pad (S j) t) 0%Z)) l = al d m (fun i => Qcz (nth i (pad j (x :: t)) 0%Z)) l).
      { induction n as [|n IHn]; intros l L1 L2; [lia|]. rewrite !al_eq by lia. f_equal.
        - f_equal. unfold pad. rewrite !app_nth2 by (rewrite repeat_length; lia). rewrite !repeat_length. replace (l - j)%nat with (S (l - S j)) by lia. reflexivity.
        - unfold sfrom. apply qsum_ext. intros l' Hl'. destruct (Nat.leb_spec (S l) l'); auto. rewrite IHn by lia. reflexivity. }
      intros l Hl. apply (X (d - l)%nat); auto. }
    assert (N3 : forall i', sfrom d (S j) (fun l => m i' l * al d m (fun i => Qcz (nth i (pad (S j) t) 0%Z)) l) = sfrom d (S j) (fun l => m i' l * al d m (fun i => Qcz (nth i (pad j (x :: t)) 0%Z)) l)).
    { intros i'. unfold sfrom. apply qsum_ext. intros l Hl. destruct (Nat.leb_spec (S j) l); auto. rewrite N2 by lia. reflexivity. }
    rewrite !N3. rewrite (al_eq d m _ j) by lia. rewrite N1.
    match goal with |- ?a = ?b => change (@eq Qc a b) end. ring.
Qed.
Lemma cen_same k sfx : (k + S (length sfx) = d)%nat -> cen qe_ops c' k sfx = cen qe_ops c k sfx.
Proof.
  intros HL. unfold cen. rewrite csum_prim, csum_dual_al by lia. f_equal.
  pose proof (gcoord_nu d m (pad (S k) sfx) k ltac:(lia)) as G. rewrite al_eq in G by lia.
  unfold gcoord, no_target in G. change (qsum d (fun j => if (k <? j)%nat then Qcz (nth j (pad (S k) sfx) 0%Z) * nu d m j k else 0))
    with (sfrom d (S k) (fun j => Qcz (nth j (pad (S k) sfx) 0%Z) * nu d m j k)) in G.
  set (a := sfrom d (S k) (fun j => Qcz (nth j (pad (S k) sfx) 0%Z) * nu d m j k)) in *. set (b := sfrom _ _ _) in *. set (e := Qcz _) in *. clearbody a b e.
  clear - G. replace a with (e + a - 0 - e) by ring. rewrite G. ring.
Qed.
End Cen.

(** ** the run *)
Section Run.
Variables (d : nat) (mu : nat -> nat -> Qc) (r : nat -> Qc) (findsub : bool) (prune : option (nat -> Qc)) (R : Qc) (ne : Z).
Hypothesis Hd : (0 < d)%nat.
Hypothesis HR : 0 <= R.
Definition dmut (i j : nat) : Qc := - mu (d - i - 1)%nat (d - j - 1)%nat.
Definition dnu (j i : nat) : Qc := nu d dmut j i.
Definition dr (i : nat) : Qc := / r (d - i - 1)%nat.
Notation inpd := (dual_input d mu r findsub prune R ne).
Notation inpp := (enum_input d dnu dr None [] findsub prune R ne).
Hypothesis Hr : forall i, (i < d)%nat -> r i <> 0.

Lemma maxd_nonneg : 0 <= R * pow2 (- ne).
Proof. pose proof (pow2_pos (- ne)) as P. revert P. generalize (pow2 (- ne)). intros. qcnra. Qed.
Lemma rd_same k : (k < d)%nat -> i_rdiag inpp k = i_rdiag inpd k.
Proof.
  intros Hk. cbn [i_rdiag dual_input enum_input]. unfold dr. specialize (Hr (d - k - 1)%nat ltac:(lia)).
  pose proof (pow2_inv ne) as PI. assert (P0 : pow2 ne <> 0) by (intros E; rewrite E, Qcmult_0_l in PI; discriminate PI).
  match goal with |- ?a = ?b => change (@eq Qc a b) end.
  assert (E : pow2 (- ne) = / pow2 ne) by (rewrite <- (Qcmult_1_r (/ pow2 ne)), <- PI; field; auto). rewrite E. field. auto.
Qed.
Lemma qsub_nil (inp : einput qe_ops) : i_subtree inp = [] -> qsub qe_ops inp = junkp qe_ops inp.
Proof. intros H. unfold qsub. rewrite H. reflexivity. Qed.

Context {EV : Type}.
Variable evalS : list Z -> Qc -> Qc -> EV -> EV * Qc.
Variable evalSub : nat -> list Z -> Qc -> EV -> EV.
Variable rst : list Z -> nat -> option (option (list Z * Qc)).
Lemma pure_same rec fuel (ev : EV) :
  oeq qe_ops (ecfg0 qe_ops inpd) (pure_run qe_ops evalS evalSub rst inpp rec fuel 0 ev) (pure_run qe_ops evalS evalSub rst inpd rec fuel 0 ev).
Proof.
  unfold pure_run. cbn [i_d i_subtree dual_input enum_input length]. rewrite Nat.sub_0_r.
  assert (QS : forall i, p_cp (qsub qe_ops inpd) i = p_cp (qsub qe_ops inpp) i) by (intros; reflexivity).
  apply plev_congr; try reflexivity.
  - intros k Hk. cbn [c_kend ecfg0 cfg_of i_d i_subtree dual_input length] in Hk. apply rd_same. lia.
  - intros k sfx HL. cbn [c_kend ecfg0 cfg_of i_d i_subtree dual_input length] in HL. rewrite Nat.sub_0_r in HL.
    apply (cen_same d dmut); auto; cbn [c_kend ecfg0 cfg_of i_d i_subtree dual_input enum_input length]; try lia; reflexivity.
  - cbn [length c_kend ecfg0 cfg_of i_d i_subtree dual_input]. lia.
  - constructor; try reflexivity. intros i Hi. cbn [c_kend ecfg0 cfg_of i_d i_subtree dual_input length] in Hi. cbn [g_subd g_start]. apply rd_same. lia.
Qed.

(** a dual run and the primal run with the inverse coefficients *)
Theorem dual_as_primal rec fuel ev s : run_enum qe_ops evalS evalSub rst rec fuel inpd ev = Some s ->
  exists f s', run_enum qe_ops evalS evalSub rst rec f inpp ev = Some s' /\ g_max (s_g s') = g_max (s_g s) /\ g_ev (s_g s') = g_ev (s_g s) /\
    g_log (s_g s') = g_log (s_g s) /\ g_nodes (s_g s') = g_nodes (s_g s).
Proof.
  intros H. destruct (prep_zero inpd eq_refl eq_refl maxd_nonneg) as [qd HPd]. destruct (prep_zero inpp eq_refl eq_refl maxd_nonneg) as [qp HPp].
  assert (K1 : (0 < i_d inpd - length (i_subtree inpd))%nat) by (cbn; lia). assert (K2 : (0 < i_d inpp - length (i_subtree inpp))%nat) by (cbn; lia).
  assert (L1 : (length (i_subtree inpd) <= i_d inpd)%nat) by (cbn; lia). assert (L2 : (length (i_subtree inpp) <= i_d inpp)%nat) by (cbn; lia).
  assert (Z0 : e_le qe_ops (e_zero qe_ops) (e_zero qe_ops) = true) by reflexivity.
  assert (PD : pure_run qe_ops evalS evalSub rst inpd rec fuel 0 ev = Some (s_g s)).
  { destruct rec.
    - pose proof (run_rec_pure qe_ops evalS evalSub rst inpd L1 fuel ev 0%nat qd HPd K1) as X.
      destruct (pure_run qe_ops evalS evalSub rst inpd true fuel 0 ev) as [g|]; [|congruence]. destruct X as [s' [X1 X2]]. congruence.
    - exact (run_iter_pure_inv qe_ops evalS evalSub rst inpd L1 fuel ev 0%nat qd s Z0 HPd K1 H). }
  pose proof (pure_same rec fuel ev) as PS. rewrite PD in PS. 
  destruct (pure_run qe_ops evalS evalSub rst inpp rec fuel 0 ev) as [g|] eqn:PP; [|destruct PS]. destruct PS as [Q1 Q2 Q3 Q4 Q5 Q6].
  destruct rec.
  - pose proof (run_rec_pure qe_ops evalS evalSub rst inpp L2 fuel ev 0%nat qp HPp K2) as X. rewrite PP in X. destruct X as [s' [X1 X2]].
    exists fuel, s'. rewrite X2. auto.
  - destruct (run_iter_pure qe_ops evalS evalSub rst inpp L2 fuel ev 0%nat qp g Z0 HPp K2 PP) as [f [s' [X1 X2]]]. exists f, s'. rewrite X2. auto.
Qed.
Theorem primal_as_dual rec fuel ev s : run_enum qe_ops evalS evalSub rst rec fuel inpp ev = Some s ->
  exists f s', run_enum qe_ops evalS evalSub rst rec f inpd ev = Some s'.
Proof.
  intros H. destruct (prep_zero inpd eq_refl eq_refl maxd_nonneg) as [qd HPd]. destruct (prep_zero inpp eq_refl eq_refl maxd_nonneg) as [qp HPp].
  assert (K1 : (0 < i_d inpd - length (i_subtree inpd))%nat) by (cbn; lia). assert (K2 : (0 < i_d inpp - length (i_subtree inpp))%nat) by (cbn; lia).
  assert (L1 : (length (i_subtree inpd) <= i_d inpd)%nat) by (cbn; lia). assert (L2 : (length (i_subtree inpp) <= i_d inpp)%nat) by (cbn; lia).
  assert (Z0 : e_le qe_ops (e_zero qe_ops) (e_zero qe_ops) = true) by reflexivity.
  assert (PP : exists g, pure_run qe_ops evalS evalSub rst inpp rec fuel 0 ev = Some g).
  { destruct rec.
    - pose proof (run_rec_pure qe_ops evalS evalSub rst inpp L2 fuel ev 0%nat qp HPp K2) as X.
      destruct (pure_run qe_ops evalS evalSub rst inpp true fuel 0 ev) as [g|]; [eauto|congruence].
    - eexists. exact (run_iter_pure_inv qe_ops evalS evalSub rst inpp L2 fuel ev 0%nat qp s Z0 HPp K2 H). }
  destruct PP as [g PP]. pose proof (pure_same rec fuel ev) as PS. rewrite PP in PS.
  destruct (pure_run qe_ops evalS evalSub rst inpd rec fuel 0 ev) as [g'|] eqn:PD; [|destruct PS].
  destruct rec.
  - pose proof (run_rec_pure qe_ops evalS evalSub rst inpd L1 fuel ev 0%nat qd HPd K1) as X. rewrite PD in X. destruct X as [s' [X1 X2]]. eauto.
  - destruct (run_iter_pure qe_ops evalS evalSub rst inpd L1 fuel ev 0%nat qd g' Z0 HPd K1 PD) as [f [s' [X1 X2]]]. eauto.
Qed.
End Run.
