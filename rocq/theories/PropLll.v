(** C10, C15, C16 (first part), C17: LLLReduction for an arbitrary
    floating-point type. *)
From Coq Require Import List ZArith QArith Qround Qcanon Lia Arith Bool.
From Verif Require Import Util QcUtil LatticeSpec NumVectModel NumVectProofs MatrixModel MatrixProofs
  GsoModel GsoProofs GsoHistory GsoFModel GsoFSpec GsoFProofs GsoQ GsoWeak PropGso PropGsoF LllModel LllProofs LllQ.
Import ListNotations.
Local Open Scope nat_scope.

(** ** Sequences of calls on one LLLReduction object *)
(** Public methods that change the basis (lll.h:52-66); the integers are their
    arguments, with kappa_end = -1 already replaced by m.d. *)
Inductive lcall :=
| CLll (kmin kstart kend srs : nat)
| CSizeRed (kmin kend srs : nat).

Section Calls.
Variable lo : lops.
Variable P : lpar lo.
Variable fuel : nat.
Variable max_iter : list (list Z) -> nat.
Definition do_call (st : lst lo) (x : lcall) : option (lst lo * out) :=
  match x with
  | CLll a b c d => lll lo P fuel max_iter st a b c d
  | CSizeRed a c d => size_reduction lo P fuel st a c d
  end.
(** Preconditions.  lll: the range is well formed (lll.cpp:51), columns are not
    locked, and the rows before kappa_start are known to the GSO object (for
    kappa_min = 0 < kappa_start: also after zero rows have been moved away).
    size_reduction: the rows before kappa_min are known. *)
Definition call_ok (st : lst lo) (x : lcall) : Prop :=
  let z := lz st in
  locked z = false /\
  match x with
  | CLll kmin kstart kend _ =>
      kmin <= kstart < kend /\ kend <= gd z /\ kstart <= nkr z /\
      (kstart = 0 \/ 1 <= kmin \/ kend <= nkr z \/ exists k, k < gc z /\ ent (gb z) 0 k <> 0%Z)
  | CSizeRed kmin kend _ => kmin <= kend /\ kend <= gd z /\ kmin <= nkr z
  end.
(** The calls are executed in sequence, whatever they return. *)
Fixpoint do_calls (st : lst lo) (l : list lcall) : option (lst lo * list out) :=
  match l with
  | [] => Some (st, [])
  | x :: l' =>
      match do_call st x with
      | Some (st', o) => match do_calls st' l' with Some (st'', os) => Some (st'', o :: os) | None => None end
      | None => None
      end
  end.
Fixpoint calls_ok (st : lst lo) (l : list lcall) : Prop :=
  match l with
  | [] => True
  | x :: l' => call_ok st x /\ match do_call st x with Some (st', _) => calls_ok st' l' | None => True end
  end.
End Calls.

Lemma zero_row z : Inv z -> (exists k, k < gc z /\ ent (gb z) 0 k <> 0%Z) -> 0 < gd z -> nv_is_zero (nth 0 (gb z) []) 0 = false.
Proof.
  intros HI [k [Hk Hn]] Hg. destruct (nv_is_zero (nth 0 (gb z) []) 0) eqn:E; auto.
  exfalso. apply Hn. unfold ent. revert E. generalize (nth 0 (gb z) []). intros v E.
  destruct (Nat.lt_ge_cases k (length v)); [|apply nth_overflow; auto].
  apply (proj1 (nv_is_zero_spec v 0)); auto; lia.
Qed.

Lemma do_call_ok lo P fuel max_iter st x : (p_early P = true -> en_g (lz st) = false) ->
  W lo st -> call_ok lo st x ->
  exists st' o, do_call lo P fuel max_iter st x = Some (st', o) /\ post lo fuel st st' o /\ (o = OTrue -> lstat st' = RED_SUCCESS).
Proof.
  intros HE HW HC. destruct x as [a b c d|a c d]; destruct HC as [HL HC]; cbn [do_call].
  - destruct HC as [H1 [H2 [H3 H4]]]. apply lll_w; auto. repeat (split; [auto; lia|]). split; auto.
    destruct H4 as [H4|[H4|[H4|H4]]]; auto. right. left. apply zero_row; auto; try lia. apply HW.
  - destruct HC as [H1 [H2 H3]]. apply size_reduction_w; auto.
Qed.

Lemma do_calls_ok lo P fuel max_iter l : forall st, (p_early P = true -> en_g (lz st) = false) ->
  W lo st -> calls_ok lo P fuel max_iter st l ->
  exists st' os, do_calls lo P fuel max_iter st l = Some (st', os) /\ W lo st' /\ Steps (lz st) (lz st') /\
    length os = length l /\ (enough fuel -> ~ In OFuel os) /\
    (forall o, l <> [] -> last os OTrue = o -> (o = OTrue -> lstat st' = RED_SUCCESS) /\ (o = OFalse -> lstat st' <> RED_SUCCESS)).
Proof.
  induction l as [|x l IH]; intros st HE HW HC; cbn [do_calls].
  - exists st, []. split; auto. split; auto. split; [apply St_refl|]. split; auto. split; [intros _ []|]. congruence.
  - destruct HC as [HC HR]. destruct (do_call_ok lo P fuel max_iter st x HE HW HC) as [st1 [o [E [[W1 [S1 [O1 O2]]] Q1]]]].
    rewrite E in *. destruct (Steps_inv _ _ (proj1 HW) S1) as [_ [F1 _]].
    destruct (IH st1) as [st' [os [E' [W' [S' [L' [N' Q']]]]]]]; auto. { intros X. destruct F1 as [_ [F1 _]]. rewrite F1; auto. }
    rewrite E'. exists st', (o :: os). split; auto. split; auto. split; [eapply Steps_trans; eauto|]. split; [cbn [length]; auto|].
    split. { intros X [->|X2]; [exact (O2 X eq_refl)|exact (N' X X2)]. }
    intros o' _ Hl. destruct l as [|y l].
    + cbn in E'. injection E' as <- <-. cbn in Hl. subst o'. auto.
    + apply Q'; [discriminate|]. destruct os; [discriminate L'|]. exact Hl.
Qed.

(** ** The object at construction *)
Section New.
Variable lo : lops.
Variable en_e : bool.
Variable junk : F (lf lo).
Variables (delta eta : F (lf lo)) (early siegel : bool).
Variables (b : list (list Z)) (c : nat) (u ui : list (list Z)) (ig fl : bool).
(** MatGSO m(b, u, u_inv_t, flags); LLLReduction lll_obj(m, delta, eta, flags) *)
Definition lll_new : option (lst lo) :=
  match fgso_new (lf lo) en_e junk b c u ui ig fl with Some (z, s) => Some (lst_new z s) | None => None end.
Definition lpar_new : lpar lo := lll_par lo (gso_new b c u ui ig fl) en_e delta eta early siegel.

Lemma lll_new_w : valid_input b c u ui ->
  exists st, lll_new = Some st /\ W lo st /\ lz st = gso_new b c u ui ig fl.
Proof.
  intros HV. pose proof (valid_input_inv b c u ui ig fl HV) as HI.
  destruct (fst_new_w (lf lo) en_e junk _ HI) as [s [E [D _]]].
  unfold lll_new, fgso_new. rewrite E. eexists. split; [reflexivity|]. split; auto. split; auto.
Qed.
End New.

(** * C10 *)
(** For every floating-point type (every result of every operation and every
    comparison), every sequence of lll/size_reduction calls, and every bound on
    the iterations: no access out of bounds, and the final basis generates the
    same lattice as the input, whether the calls succeeded or failed. *)
Theorem lll_preserves_lattice :
  forall lo en_e junk delta eta early siegel b c u ui ig fl fuel max_iter l,
    valid_input b c u ui ->
    exists st, lll_new lo en_e junk b c u ui ig fl = Some st /\
    let P := lpar_new lo en_e delta eta early siegel b c u ui ig fl in
    (calls_ok lo P fuel max_iter st l ->
     exists st' os, do_calls lo P fuel max_iter st l = Some (st', os) /\
       length (gb (lz st')) = length b /\ rect c (gb (lz st')) /\ same_lattice c b (gb (lz st'))).
Proof.
  intros lo en_e junk delta eta early siegel b c u ui ig fl fuel max_iter l HV.
  destruct (lll_new_w lo en_e junk b c u ui ig fl HV) as [st [E [HW EZ]]]. exists st. split; auto. intros P HC.
  destruct (do_calls_ok lo P fuel max_iter l st) as [st' [os [E' [W' [S' _]]]]]; auto.
  { unfold P, lpar_new, lll_par. cbn [p_early]. intros X. apply andb_prop in X. destruct X as [_ X]. rewrite EZ.
    cbn [en_g gso_new] in *. destruct ig; auto. }
  exists st', os. split; auto. destruct (Steps_inv _ _ (proj1 HW) S') as [I' [[Fc _] G']].
  pose proof (Steps_lattice _ _ (proj1 HW) S') as HL. rewrite EZ in *. split; [exact G'|]. split; [|exact HL].
  intros i Hi. destruct (I_b _ I') as [_ X]. cbn [gc gso_new] in Fc. rewrite <- Fc. apply X. exact Hi.
Qed.

(** With transformation matrices (initially the identity): u and u_inv_t stay
    inverse to each other and link input and current basis. *)
Theorem lll_transform_tracks :
  forall lo en_e junk delta eta early siegel b c ig fl fuel max_iter l,
    b <> [] -> 1 <= c -> rect c b ->
    let d := length b in
    exists st, lll_new lo en_e junk b c (ident d) (ident d) ig fl = Some st /\
    let P := lpar_new lo en_e delta eta early siegel b c (ident d) (ident d) ig fl in
    (calls_ok lo P fuel max_iter st l ->
     exists st' os, do_calls lo P fuel max_iter st l = Some (st', os) /\
       is_product c (gb (lz st')) (gu (lz st')) b /\
       inverse_transposed d (gu (lz st')) (gui (lz st')) /\
       forall i j, i < d -> j < c -> ent b i j = zsum d (fun k => (ent (gui (lz st')) k i * ent (gb (lz st')) k j)%Z)).
Proof.
  intros lo en_e junk delta eta early siegel b c ig fl fuel max_iter l Hne Hc Hb d.
  assert (HV : valid_input b c (ident d) (ident d)).
  { constructor; auto; right; unfold d; rewrite ident_length; split; auto; exists (length b); apply rect_ident. }
  destruct (lll_new_w lo en_e junk b c (ident d) (ident d) ig fl HV) as [st [E [HW EZ]]]. exists st. split; auto. intros P HC.
  destruct (do_calls_ok lo P fuel max_iter l st) as [st' [os [E' [W' [S' _]]]]]; auto.
  { unfold P, lpar_new, lll_par. cbn [p_early]. intros X. apply andb_prop in X. destruct X as [_ X]. rewrite EZ.
    cbn [en_g gso_new] in *. destruct ig; auto. }
  exists st', os. split; auto. destruct (Steps_inv _ _ (proj1 HW) S') as [I' [[Fc _] G']].
  assert (HT : (0 <? length (ident d)) = true) by (unfold d; rewrite ident_length; destruct b; [congruence|reflexivity]).
  assert (HP : is_product c (gb (lz st')) (gu (lz st')) b).
  { apply (Steps_product (lz st)); auto. apply HW. rewrite EZ. cbn [en_t gso_new]. auto.
    rewrite EZ. intros i j Hi Hj. cbn [gb gu gso_new] in *.
    rewrite zsum_ext with (g := fun k => if (k =? i)%nat then ent b k j else 0%Z).
    + rewrite zsum_delta by auto. auto.
    + intros k Hk. unfold d. rewrite ent_ident by auto. unfold LatticeSpec.delta. rewrite Nat.eqb_sym. destruct (k =? i); lia. }
  assert (Hd : gd (lz st) = d) by (rewrite EZ; reflexivity).
  assert (HV2 : inverse_transposed d (gu (lz st')) (gui (lz st'))).
  { pose proof (Steps_inverse (lz st) (lz st')) as X. rewrite Hd in X. apply X; auto; try (rewrite EZ; cbn [en_t en_i gso_new]; rewrite ?HT; auto; fail); try apply HW.
    clear X. rewrite EZ. cbn [gu gui gso_new]. split; intros i j Hi Hj.
    - rewrite zsum_ext with (g := fun k => if (k =? i)%nat then LatticeSpec.delta j k else 0%Z).
      + rewrite zsum_delta by auto. unfold LatticeSpec.delta. rewrite Nat.eqb_sym. auto.
      + intros k Hk. rewrite !ent_ident by auto. unfold LatticeSpec.delta. rewrite (Nat.eqb_sym i k). destruct (k =? i); lia.
    - rewrite zsum_ext with (g := fun k => if (k =? i)%nat then LatticeSpec.delta k j else 0%Z).
      + rewrite zsum_delta by auto. auto.
      + intros k Hk. rewrite !ent_ident by auto. unfold LatticeSpec.delta. destruct (k =? i); lia. }
  split; auto. split; auto. intros i j Hi Hj. apply product_inverse with (n := c) (U := gu (lz st')) (B0 := b); auto.
  unfold gd in G'. rewrite G'. rewrite EZ. reflexivity.
Qed.

(** * C15 *)
(** [enough fuel] says 2^64 < 5 (fuel - 2): with that many iterations allowed to
    each call of babai, the loop bound of the model is never reached.  The main
    loop makes at most max_iter iterations.  So every call returns true or
    false, or overflows the type long when it computes with exponents. *)
Theorem lll_always_returns :
  forall lo en_e junk delta eta early siegel b c u ui ig fl fuel max_iter l,
    valid_input b c u ui -> (2 ^ 64 < 5 * (Z.of_nat fuel - 2))%Z ->
    exists st, lll_new lo en_e junk b c u ui ig fl = Some st /\
    let P := lpar_new lo en_e delta eta early siegel b c u ui ig fl in
    (calls_ok lo P fuel max_iter st l ->
     exists st' os, do_calls lo P fuel max_iter st l = Some (st', os) /\
       Forall (fun o => o = OTrue \/ o = OFalse \/ o = OExpo) os).
Proof.
  intros lo en_e junk delta eta early siegel b c u ui ig fl fuel max_iter l HV HF.
  destruct (lll_new_w lo en_e junk b c u ui ig fl HV) as [st [E [HW EZ]]]. exists st. split; auto. intros P HC.
  destruct (do_calls_ok lo P fuel max_iter l st) as [st' [os [E' [W' [S' [_ [N' _]]]]]]]; auto.
  { unfold P, lpar_new, lll_par. cbn [p_early]. intros X. apply andb_prop in X. destruct X as [_ X]. rewrite EZ.
    cbn [en_g gso_new] in *. destruct ig; auto. }
  exists st', os. split; auto. apply Forall_forall. intros o Ho. specialize (N' HF). destruct o; auto. destruct N'. auto.
Qed.

(** * C17 *)
(** The status member agrees with the result of the last call: RED_SUCCESS after
    true, a failure code after false. *)
Theorem lll_status_matches_result :
  forall lo en_e junk delta eta early siegel b c u ui ig fl fuel max_iter l x,
    valid_input b c u ui ->
    exists st, lll_new lo en_e junk b c u ui ig fl = Some st /\
    let P := lpar_new lo en_e delta eta early siegel b c u ui ig fl in
    (calls_ok lo P fuel max_iter st (l ++ [x]) ->
     exists st' os o, do_calls lo P fuel max_iter st (l ++ [x]) = Some (st', os ++ [o]) /\
       (o = OTrue -> lstat st' = RED_SUCCESS) /\ (o = OFalse -> lstat st' <> RED_SUCCESS)).
Proof.
  intros lo en_e junk delta eta early siegel b c u ui ig fl fuel max_iter l x HV.
  destruct (lll_new_w lo en_e junk b c u ui ig fl HV) as [st [E [HW EZ]]]. exists st. split; auto. intros P HC.
  destruct (do_calls_ok lo P fuel max_iter (l ++ [x]) st) as [st' [os [E' [W' [S' [L' [_ Q']]]]]]]; auto.
  { unfold P, lpar_new, lll_par. cbn [p_early]. intros X. apply andb_prop in X. destruct X as [_ X]. rewrite EZ.
    cbn [en_g gso_new] in *. destruct ig; auto. }
  assert (os <> []). { intros ->. rewrite app_length in L'. cbn in L'. lia. }
  exists st', (removelast os), (last os OTrue). rewrite <- app_removelast_last by auto. split; auto.
  apply Q'; auto. destruct l; discriminate.
Qed.

(** * C16 *)
(** The loop at the start of lll tests row 0 but moves row kappa_min.  For
    kappa_min > 0 both directions of the claim fail, even in exact arithmetic:
    - rows 1..2 hold no zero vector and are not reduced; row 0 is zero; lll(1,1,3)
      reports success, counts 2 zero vectors and only exchanges the two rows;
    - row 1 is zero, row 0 is not: lll(1,1,3) does not move it away and fails
      with RED_GSO_FAILURE. *)
Definition c16_b1 : list (list Z) := [[0;0;0]; [1;0;0]; [5;1;0]]%Z.
Definition c16_b2 : list (list Z) := [[0;0;1]; [0;0;0]; [5;1;0]]%Z.
Definition c16_P b := lpar_new lqx false (q_of 99 100) (q_of 51 100) false false b 3 [] [] false false.

(** computes everything the statement says about one witness *)
Definition c16_sum (b : list (list Z)) :=
  match lll_new lqx false 0%Qc b 3 [] [] false false with
  | Some st0 =>
      match do_call lqx (c16_P b) 50 (fun _ => 100) st0 (CSizeRed 0 1 0) with
      | Some (st, o1) =>
          match do_call lqx (c16_P b) 50 (fun _ => 100) st (CLll 1 1 3 0) with
          | Some (st', o2) => Some (o1, (locked (lz st), gd (lz st), nkr (lz st)), o2, lstat st', lzeros st', gb (lz st'))
          | None => None
          end
      | None => None
      end
  | None => None
  end.
Lemma c16_ok b o' stt nz b' : valid_input b 3 [] [] ->
  c16_sum b = Some (OTrue, (false, 3, 1), o', stt, nz, b') -> length b = 3 ->
  exists st0 st st' o,
     valid_input b 3 [] [] /\
     lll_new lqx false 0%Qc b 3 [] [] false false = Some st0 /\
     calls_ok lqx (c16_P b) 50 (fun _ => 100) st0 [CSizeRed 0 1 0; CLll 1 1 3 0] /\
     do_call lqx (c16_P b) 50 (fun _ => 100) st0 (CSizeRed 0 1 0) = Some (st, OTrue) /\
     do_call lqx (c16_P b) 50 (fun _ => 100) st (CLll 1 1 3 0) = Some (st', o) /\
     o = o' /\ lstat st' = stt /\ lzeros st' = nz /\ gb (lz st') = b'.
Proof.
  intros HV. unfold c16_sum. destruct (lll_new_w lqx false 0%Qc b 3 [] [] false false HV) as [st0 [E0 [_ Z0]]]. rewrite E0.
  destruct (do_call lqx (c16_P b) 50 (fun _ => 100) st0 (CSizeRed 0 1 0)) as [[st o1]|] eqn:E1; [|discriminate].
  destruct (do_call lqx (c16_P b) 50 (fun _ => 100) st (CLll 1 1 3 0)) as [[st' o2]|] eqn:E2; [|discriminate].
  intros H HL. injection H as -> A1 A2 A3 -> A4 A5 A6. exists st0, st, st', o'. split; auto. split; auto. split; [|auto 10].
  cbn [calls_ok]. split.
  - unfold call_ok. rewrite Z0. cbn [locked gd gso_new nkr gb]. unfold gd. cbn [gb gso_new]. rewrite HL. repeat split; auto; lia.
  - rewrite E1. split; [|rewrite E2; auto]. unfold call_ok. rewrite A1, A2, A3. repeat split; auto; lia.
Qed.

Theorem lll_subrange_zeros_refuted :
  (exists st0 st st' o,
     valid_input c16_b1 3 [] [] /\
     lll_new lqx false 0%Qc c16_b1 3 [] [] false false = Some st0 /\
     calls_ok lqx (c16_P c16_b1) 50 (fun _ => 100) st0 [CSizeRed 0 1 0; CLll 1 1 3 0] /\
     do_call lqx (c16_P c16_b1) 50 (fun _ => 100) st0 (CSizeRed 0 1 0) = Some (st, OTrue) /\
     do_call lqx (c16_P c16_b1) 50 (fun _ => 100) st (CLll 1 1 3 0) = Some (st', o) /\
     o = OTrue /\ lstat st' = RED_SUCCESS /\ lzeros st' = 2 /\
     gb (lz st') = [[0;0;0]; [5;1;0]; [1;0;0]]%Z) /\
  (exists st0 st st' o,
     valid_input c16_b2 3 [] [] /\
     lll_new lqx false 0%Qc c16_b2 3 [] [] false false = Some st0 /\
     calls_ok lqx (c16_P c16_b2) 50 (fun _ => 100) st0 [CSizeRed 0 1 0; CLll 1 1 3 0] /\
     do_call lqx (c16_P c16_b2) 50 (fun _ => 100) st0 (CSizeRed 0 1 0) = Some (st, OTrue) /\
     do_call lqx (c16_P c16_b2) 50 (fun _ => 100) st (CLll 1 1 3 0) = Some (st', o) /\
     o = OFalse /\ lstat st' = RED_GSO_FAILURE /\ lzeros st' = 0 /\ gb (lz st') = c16_b2).
Proof.
  split; [apply (c16_ok c16_b1 OTrue RED_SUCCESS 2 [[0;0;0]; [5;1;0]; [1;0;0]]%Z)|apply (c16_ok c16_b2 OFalse RED_GSO_FAILURE 0 c16_b2)].
  1,4: constructor; auto; intros i Hi; cbn in Hi; do 3 (destruct i as [|i]; [reflexivity|]); lia.
  all: vm_compute; reflexivity.
Qed.

(** ** Examples *)
(** A knapsack-type basis; exact arithmetic and fixed point arithmetic with 4
    fractional bits.  Both runs make swaps and succeed. *)
Definition exl_b : list (list Z) := [[1;0;0;0;1345]; [0;1;0;0;35]; [0;0;1;0;154]; [0;0;0;1;-7]]%Z.
Lemma exl_valid : valid_input exl_b 5 (ident 4) (ident 4).
Proof.
  constructor.
  - lia.
  - intros i Hi. cbn in Hi. do 4 (destruct i as [|i]; [reflexivity|]). lia.
  - right. split; [reflexivity|]. exists 4. apply rect_ident.
  - right. split; [reflexivity|]. exists 4. apply rect_ident.
Qed.
Definition exl_run (lo : lops) (junk delta eta : F (lf lo)) en_e early siegel ig (l : list lcall) :=
  match lll_new lo en_e junk exl_b 5 (ident 4) (ident 4) ig false with
  | Some st => match do_calls lo (lpar_new lo en_e delta eta early siegel exl_b 5 (ident 4) (ident 4) ig false) 50 (fun _ => 100) st l with
               | Some (st', os) => Some (gb (lz st'), lsw st', lstat st', os)
               | None => None
               end
  | None => None
  end.
Example exl_calls : forall lo (junk delta eta : F (lf lo)) en_e early siegel ig fuel mi st,
  lll_new lo en_e junk exl_b 5 (ident 4) (ident 4) ig false = Some st ->
  calls_ok lo (lpar_new lo en_e delta eta early siegel exl_b 5 (ident 4) (ident 4) ig false) fuel mi st [CLll 0 0 4 0].
Proof.
  intros lo junk delta eta en_e early siegel ig fuel mi st H.
  destruct (lll_new_w lo en_e junk exl_b 5 (ident 4) (ident 4) ig false exl_valid) as [st2 [E [_ EZ]]].
  assert (st2 = st) by congruence. subst st2. cbn [calls_ok]. split.
  - unfold call_ok. rewrite EZ. cbn. repeat split; auto; lia.
  - destruct (do_call _ _ _ _ _ _) as [[? ?]|]; auto.
Qed.
Definition exl_red : list (list Z) := [[0;-4;1;2;0]; [0;1;0;5;0]; [0;0;0;1;-7]; [1;-3;-8;1;1]]%Z.
Example exl_exact : exl_run lqx 0%Qc (q_of 99 100) (q_of 51 100) true true false false [CLll 0 0 4 0] = Some (exl_red, 7, RED_SUCCESS, [OTrue]).
Proof. vm_compute. reflexivity. Qed.
Example exl_fixed : exl_run lfx 77%Z 15%Z 9%Z false true false false [CLll 0 0 4 0] = Some (exl_red, 8, RED_SUCCESS, [OTrue]).
Proof. vm_compute. reflexivity. Qed.
(** A run that fails: with eta = 0 the size reduction cannot succeed. *)
Example exl_failure : exl_run lfx 77%Z 15%Z 0%Z false false false true [CLll 0 0 4 0; CLll 0 0 4 0] =
  Some ([[0; 1; 0; 0; 35]; [1; -38; 0; 0; 15]; [0; 0; 1; 0; 154]; [0; 0; 0; 1; -7]]%Z, 0, RED_BABAI_FAILURE, [OFalse; OFalse]).
Proof. vm_compute. reflexivity. Qed.
Example exl_fuel : (2 ^ 64 < 5 * (Z.of_nat (Z.to_nat (2 ^ 62)) - 2))%Z.
Proof. rewrite Z2Nat.id; lia. Qed.

Print Assumptions lll_preserves_lattice.
Print Assumptions lll_transform_tracks.
Print Assumptions lll_always_returns.
Print Assumptions lll_status_matches_result.
Print Assumptions lll_subrange_zeros_refuted.
