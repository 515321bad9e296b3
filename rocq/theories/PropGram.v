(** Theorems about MatGSOGram (property C53, and the Gram half of C07). *)
From Coq Require Import List ZArith Lia Arith Bool.
From Verif Require Import Util LatticeSpec NumVectModel NumVectProofs MatrixModel MatrixProofs
  GsoModel GsoProofs GsoHistory GramModel GramProofs.
Import ListNotations.
Local Open Scope nat_scope.

(** entry (i,j) of the symmetric matrix stored in the lower triangle of G *)
Definition low (G : list (list Z)) (i j : nat) : Z := if j <=? i then ent G i j else ent G j i.

(** G' = T G T^t, entry by entry *)
Definition is_congruence (d : nat) (T G G' : list (list Z)) : Prop :=
  forall i j, i < d -> j < d ->
    low G' i j = zsum d (fun k => zsum d (fun l => ent T i k * ent T j l * low G k l))%Z.

Lemma low_sg G i j : low G i j = sg G i j.
Proof. reflexivity. Qed.

(** Any integer matrix g (only its lower triangle is read), any history of legal
    operations in which move_row never moves a row downwards past the known
    rows: the Gram matrix is T g T^t for a unimodular T, and u, u_inv_t have been
    multiplied by T and by the transposed inverse of T. *)
Theorem gram_object_congruence :
  forall g u ui fl cu cui l,
    rect (length g) g ->
    (0 < length u -> length u = length g /\ rect cu u) ->
    (0 < length u -> 0 < length ui -> length ui = length g /\ rect cui ui) ->
    gmlegal_run gm_safe (gm_new g u ui fl) l ->
    exists z T V,
      gmrun (gm_new g u ui fl) l = Some z /\
      inverse_transposed (length g) T V /\
      is_congruence (length g) T g (mg z) /\
      (0 < length u -> is_product cu (mu_ z) T u) /\
      (0 < length u -> 0 < length ui -> is_product cui (mui z) V ui).
Proof.
  intros g u ui fl cu cui l Hg Hu Hui HL.
  destruct (gm_new_inv g u ui fl cu cui Hg Hu Hui) as [HI [Hd HS]].
  assert (Et : m_t (gm_new g u ui fl) = (0 <? length u) /\ m_i (gm_new g u ui fl) = (0 <? length ui)
     /\ mu_ (gm_new g u ui fl) = u /\ mui (gm_new g u ui fl) = ui).
  { unfold gm_new, gm_size_increased. cbn [malloc md]. destruct (0 <? length g); simpl; auto. }
  destruct Et as [Et [Ei [Eu Eui]]].
  destruct (gm_history (gm_new g u ui fl) l (gm_new g u ui fl) (ident (length g)) (ident (length g)))
    as [z [T [V [E [_ R]]]]]; auto.
  { rewrite Hd. split; [|split; [|split; [|split; [|split; [|split]]]]].
    - repeat split.
    - apply dims_ident.
    - apply dims_ident.
    - apply inverse_ident.
    - apply congruent_ident.
    - intros Ht m. apply product_ident. rewrite Eu. apply Hu. apply Nat.ltb_lt. congruence.
    - intros Ht Hi m. apply product_ident. rewrite Eui. apply Hui; apply Nat.ltb_lt; congruence. }
  exists z, T, V. rewrite Hd in R. destruct R as [_ [DT [DV [INV [CO [PU PUI]]]]]].
  split; auto. split; auto. split; [|split].
  - intros i j Hi Hj. rewrite low_sg, CO by auto.
    apply zsum_ext. intros k Hk. apply zsum_ext. intros m Hm. rewrite HS by auto. reflexivity.
  - intros H. rewrite <- Eu. apply PU. rewrite Et. now apply Nat.ltb_lt.
  - intros H1 H2. rewrite <- Eui. apply PUI; [rewrite Et|rewrite Ei]; now apply Nat.ltb_lt.
Qed.
Print Assumptions gram_object_congruence.

(** boolean versions of the preconditions, for examples *)
Definition gmlegalb (z : gm) (o : gop) : bool :=
  match o with
  | ORowAdd i j | ORowSub i j | OAddmulSi i j _ | OAddmulSi2 i j _ _
  | OAddmul2 i j _ _ | OAddmulWe i j _ _ _ _ => (i <? mkr z) && (j <? msr z) && negb (i =? j)
  | OSwap i j => (i <? j) && (j <? md z) && negb (m_i z)
  | OMove a b => negb (mlk z) && (a <? md z) && (b <? md z) && (negb (b <? a) || (a <? mkr z))
  | ODiscover => (mkr z <? md z) && negb (mlk z)
  | OLock | OUnlock => true
  | ONegate i => i <? md z
  end.
Definition gm_safeb (z : gm) (o : gop) : bool :=
  gmlegalb z o && match o with OMove a b => negb (a <? b) || (b <? mkr z) | ONegate _ => false | _ => true end.

Ltac b2p := repeat match goal with
  | H : _ && _ = true |- _ => apply andb_prop in H; destruct H
  | H : (_ <? _) = true |- _ => apply Nat.ltb_lt in H
  | H : negb (_ =? _) = true |- _ => apply negb_true_iff in H; apply Nat.eqb_neq in H
  | H : negb (_ <? _) = true |- _ => apply negb_true_iff in H; apply Nat.ltb_ge in H
  | H : negb _ = true |- _ => apply negb_true_iff in H
  | H : _ || _ = true |- _ => apply orb_prop in H; destruct H
  end.

Lemma gmlegalb_ok z o : gmlegalb z o = true -> gmlegal z o.
Proof. destruct o; cbn [gmlegalb gmlegal]; intros H; b2p; repeat split; auto; lia. Qed.
Lemma gm_safeb_ok z o : gm_safeb z o = true -> gm_safe z o.
Proof.
  unfold gm_safeb, gm_safe. intros H. apply andb_prop in H. destruct H as [H1 H2].
  split; [apply gmlegalb_ok; auto|]. destruct o; auto; try discriminate. b2p; lia.
Qed.
Fixpoint gmrunb (P : gm -> gop -> bool) (z : gm) (l : list gop) : bool :=
  match l with
  | [] => true
  | o :: l' => P z o && match gmstep z o with Some z' => gmrunb P z' l' | None => false end
  end.
Lemma gmrunb_ok (P : gm -> gop -> Prop) Pb : (forall z o, Pb z o = true -> P z o) ->
  forall l z, gmrunb Pb z l = true -> gmlegal_run P z l.
Proof.
  intros HP. induction l as [|o l IH]; intros z H; simpl in *; auto.
  apply andb_prop in H. destruct H as [H1 H2]. split; auto. destruct (gmstep z o); auto. discriminate.
Qed.

Definition exg : list (list Z) := [[4;0;0;0];[1;5;0;0];[-2;3;9;0];[7;0;1;30]]%Z.
Definition exg_hist : list gop :=
  [ODiscover; ODiscover; OAddmulSi 1 0 (-2); ODiscover; OMove 0 2; OAddmul2 2 1 3 4; ORowSub 0 2;
   ODiscover; OMove 3 1; OAddmulSi2 3 0 (-5) 2; ORowAdd 2 3; OAddmulWe 1 2 7 3 9 4].
Example exg_hyps :
  rect (length exg) exg /\ gmlegal_run gm_safe (gm_new exg (ident 4) (ident 4) false) exg_hist.
Proof.
  split.
  - intros i Hi. simpl in Hi. do 4 (destruct i as [|i]; [reflexivity|]). lia.
  - apply (gmrunb_ok gm_safe gm_safeb gm_safeb_ok). vm_compute. reflexivity.
Qed.

(** Without the restriction on move_row the claim is false: a legal move of a
    known row behind the known rows (as lll() does with zero vectors,
    lll.cpp:68-71 and 145-147) rotates u but not g. *)
Theorem gram_move_row_refuted :
  exists g l z,
    rect (length g) g /\
    gmlegal_run gmlegal (gm_new g (ident (length g)) [] false) l /\
    (forall i, ~ In (ONegate i) l) /\
    gmrun (gm_new g (ident (length g)) [] false) l = Some z /\
    ~ is_congruence (length g) (mu_ z) g (mg z).
Proof.
  exists [[0;0];[0;1]]%Z, [ODiscover; OMove 0 1]. eexists.
  split; [|split; [|split; [|split; [vm_compute; reflexivity|]]]].
  - intros i Hi. simpl in Hi. do 2 (destruct i as [|i]; [reflexivity|]). lia.
  - apply (gmrunb_ok gmlegal gmlegalb gmlegalb_ok). vm_compute. reflexivity.
  - intros i [H|[H|[]]]; discriminate.
  - intros H. specialize (H 0 0 ltac:(simpl; lia) ltac:(simpl; lia)). vm_compute in H. discriminate.
Qed.
Print Assumptions gram_move_row_refuted.

(** Consequence for the leading-zero loop of lll() (lll.cpp:68-71, kappa_min = 0,
    kappa_end = d, no row known): "while zeros < d and b_row_is_zero(0):
    move_row(0, d-1-zeros); zeros++".  [fuel] = d. *)
Fixpoint gm_leading_zeros (fuel zeros : nat) (z : gm) : option (nat * gm) :=
  match fuel with
  | 0 => Some (zeros, z)
  | S f =>
      isz <- gm_b_row_is_zero z 0;;
      if isz then z' <- gm_move_row z 0 (md z - 1 - zeros);; gm_leading_zeros f (S zeros) z'
      else Some (zeros, z)
  end.

(** One zero row in front makes the loop report all d rows as zero, whatever the
    other rows are. *)
Theorem gram_leading_zero_row_hides_lattice :
  forall g fl, 1 <= length g -> rect (length g) g -> low g 0 0 = 0%Z ->
    exists z, gm_leading_zeros (length g) 0 (gm_new g [] [] fl) = Some (length g, z) /\
      forall i j, i < length g -> j < length g -> low (mg z) i j = low g i j.
Proof.
  intros g fl Hd Hr H0.
  destruct (gm_new_inv g [] [] fl 0 0 Hr) as [HI [Hm HS]]; [simpl; lia|simpl; lia|].
  assert (Ek : mkr (gm_new g [] [] fl) = 0 /\ m_t (gm_new g [] [] fl) = false).
  { unfold gm_new, gm_size_increased. cbn [malloc md]. destruct (0 <? length g); auto. }
  destruct Ek as [Ek Et].
  exists (gm_new g [] [] fl). split.
  - assert (L : forall fuel zs, gm_leading_zeros fuel zs (gm_new g [] [] fl) = Some (zs + fuel, gm_new g [] [] fl)).
    { induction fuel; intros zs; cbn [gm_leading_zeros]; [do 2 f_equal; lia|].
      unfold gm_b_row_is_zero. rewrite (mget_sg (malloc (gm_new g [] [] fl))).
      2: apply (M_g _ HI). 2: pose proof (M_al _ HI); lia.
      cbn [obind]. rewrite HS by lia. change (sg g 0 0) with (low g 0 0). rewrite H0. cbn [Z.eqb].
      unfold gm_move_row. destruct (Nat.ltb_spec (md (gm_new g [] [] fl) - 1 - zs) 0); [lia|].
      destruct (Nat.ltb_spec 0 (md (gm_new g [] [] fl) - 1 - zs)).
      - unfold gm_rot_u. rewrite Et, Ek. cbn [obind]. destruct (Nat.ltb_spec (0 + 1) 0); [lia|]. cbn [obind].
        destruct (Nat.ltb_spec 0 0); [lia|]. rewrite andb_false_r. cbn [obind]. rewrite IHfuel. do 2 f_equal. lia.
      - cbn [obind]. rewrite IHfuel. do 2 f_equal. lia. }
    rewrite L. auto.
  - intros i j Hi Hj. apply HS; auto.
Qed.
Print Assumptions gram_leading_zero_row_hides_lattice.
Example ex_leading_zero :
  exists z, gm_leading_zeros 3 0 (gm_new [[0;0;0];[0;2;0];[0;1;3]]%Z [] [] false) = Some (3, z).
Proof. eexists. vm_compute. reflexivity. Qed.

(** C07 for MatGSOGram: appended rows need not be zero.  The new row of u is zero
    but the object reports a non-zero squared length for it. *)
Theorem gram_create_rows_refuted :
  exists g z0 z1 z2 z3,
    rect (length g) g /\
    gm_discover_all (length g) (gm_new g (ident (length g)) [] false) = Some z0 /\
    gm_create_rows (length g) z0 1 = Some z1 /\
    gmlegal z1 (ORowAdd (length g) 0) /\ gm_row_add z1 (length g) 0 = Some z2 /\
    gm_create_rows (length g) (gm_remove_last_rows z2 1) 1 = Some z3 /\
    length g < mkr z3 /\
    nth (length g) (mu_ z3) [] = repeat 0%Z (length g) /\
    exists v, gm_get_int_gram z3 (length g) (length g) = Some v /\ v <> 0%Z.
Proof.
  exists [[2;0];[1;3]]%Z.
  do 4 eexists. split; [|split; [vm_compute; reflexivity|split; [vm_compute; reflexivity|split; [|split; [vm_compute; reflexivity|split; [vm_compute; reflexivity|split; [|split]]]]]]].
  - intros i Hi. simpl in Hi. do 2 (destruct i as [|i]; [reflexivity|]). lia.
  - apply gmlegalb_ok. vm_compute. reflexivity.
  - simpl. lia.
  - vm_compute. reflexivity.
  - eexists. split; [vm_compute; reflexivity|discriminate].
Qed.
Print Assumptions gram_create_rows_refuted.
