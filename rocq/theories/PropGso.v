(** C01-C04, C08, C09: lattice-level properties of the GSO object and of the
    rotations.  Only statements, examples and assumption listings. *)
From Coq Require Import List ZArith Lia Arith Bool.
From Verif Require Import Util LatticeSpec NumVectModel NumVectProofs MatrixModel MatrixProofs
  GsoModel GsoProofs GsoHistory RotateSpec.
Import ListNotations.
Local Open Scope nat_scope.

(** Valid constructor arguments: b is d x c with c >= 1, and u, u_inv_t are
    either empty (not requested) or have as many rows as b. *)
Record valid_input (b : list (list Z)) (c : nat) (u ui : list (list Z)) : Prop := {
  vi_c : 1 <= c;
  vi_b : rect c b;
  vi_u : u = [] \/ (length u = length b /\ exists cu, rect cu u);
  vi_ui : ui = [] \/ (length ui = length b /\ exists cu, rect cu ui)
}.

Lemma valid_input_inv b c u ui ig fl : valid_input b c u ui -> Inv (gso_new b c u ui ig fl).
Proof.
  intros [Hc Hb Hu Hui]. apply gso_new_inv; auto.
  - split; auto.
  - destruct Hu as [->|[Hl [cu Hv]]]; [left|right]; auto. exists cu. split; auto. rewrite <- Hl. auto.
  - destruct Hui as [->|[Hl [cu Hv]]]; [left|right]; auto. exists cu. split; auto. rewrite <- Hl. auto.
Qed.

(** * C01 *)
Theorem gso_history_preserves_lattice :
  forall b c u ui int_gram force_long l,
    valid_input b c u ui ->
    legal_run (gso_new b c u ui int_gram force_long) l ->
    exists z, grun (gso_new b c u ui int_gram force_long) l = Some z /\
      length (gb z) = length b /\ rect c (gb z) /\ same_lattice c b (gb z).
Proof.
  intros b c u ui ig fl l HV HL.
  destruct (history_lattice l _ (valid_input_inv b c u ui ig fl HV) HL) as [z [E [HI [Hd [Hc HS]]]]].
  exists z. split; auto. simpl in Hc. split; [exact Hd|]. split; auto.
  intros i Hi. destruct (I_b _ HI) as [_ X]. rewrite <- Hc. apply X. exact Hi.
Qed.

Definition ex_b : list (list Z) := [[4;1;0]; [7;0;2]; [1;1;9]; [0;5;-3]]%Z.
Definition ex_hist : list gop :=
  [ODiscover; ODiscover; ORowSub 1 0; ODiscover; OAddmulSi2 2 0 (-3) 2; OMove 2 0; OMove 0 3;
   ODiscover; ODiscover; OAddmulWe 3 1 5 0 0 0; OAddmul2 1 2 7 3; ORowAdd 0 2; ONegate 1].

Lemma ex_b_valid : valid_input ex_b 3 (ident 4) (ident 4).
Proof.
  constructor.
  - lia.
  - intros i Hi. simpl in Hi. do 4 (destruct i as [|i]; [reflexivity|]). lia.
  - right. split; [reflexivity|]. exists 4. apply rect_ident.
  - right. split; [reflexivity|]. exists 4. apply rect_ident.
Qed.

(** decidable version of legality, for the examples *)
Definition legalb (z : gz) (o : gop) : bool :=
  match o with
  | ORowAdd i j | ORowSub i j | OAddmulSi i j _ | OAddmulSi2 i j _ _
  | OAddmul2 i j _ _ | OAddmulWe i j _ _ _ _ => (i <? nkr z) && (j <? nsr z) && negb (i =? j)
  | OSwap i j => (i <? j) && (j <? nkr z) && negb (en_i z) && negb (locked z)
  | OMove a b => negb (locked z) && (a <? gd z) && (b <? gd z) && (negb (b <? a) || (a <? nkr z))
  | ODiscover => (nkr z <? gd z) && negb (locked z && en_g z)
  | OLock => negb (en_g z)
  | OUnlock => true
  | ONegate i => i <? gd z
  end.
Fixpoint legal_runb (z : gz) (l : list gop) : bool :=
  match l with
  | [] => true
  | o :: l' => legalb z o && match gstep z o with Some z' => legal_runb z' l' | None => true end
  end.
Lemma legalb_ok z o : legalb z o = true -> legal z o.
Proof.
  destruct o; unfold legalb, legal, legal_rowop; rewrite ?andb_true_iff, ?orb_true_iff, ?negb_true_iff, ?Nat.ltb_lt, ?Nat.eqb_neq, ?Nat.ltb_ge;
    try tauto; intuition; try lia.
Qed.
Lemma legal_runb_ok l z : legal_runb z l = true -> legal_run z l.
Proof.
  revert z. induction l as [|o l IH]; simpl; auto. intros z H. apply andb_true_iff in H. destruct H as [H1 H2].
  split; [apply legalb_ok; auto|]. destruct (gstep z o); auto.
Qed.

Example ex_history_legal : legal_run (gso_new ex_b 3 (ident 4) (ident 4) true false) ex_hist.
Proof. apply legal_runb_ok. vm_compute. reflexivity. Qed.
Example ex_history_result : exists z, grun (gso_new ex_b 3 (ident 4) (ident 4) true false) ex_hist = Some z
   /\ gb z <> ex_b /\ nkr z = 4.
Proof. eexists. split; [vm_compute; reflexivity|]. split; [vm_compute; discriminate|reflexivity]. Qed.

(** * C02 *)
Theorem gso_transform_tracks_basis :
  forall b c ui int_gram force_long l,
    b <> [] -> valid_input b c (ident (length b)) ui ->
    no_negate l ->
    legal_run (gso_new b c (ident (length b)) ui int_gram force_long) l ->
    exists z, grun (gso_new b c (ident (length b)) ui int_gram force_long) l = Some z /\
      is_product c (gb z) (gu z) b.
Proof.
  intros b c ui ig fl l Hne HV HN HL.
  destruct (history_product l _ c b HN (valid_input_inv b c _ ui ig fl HV) HL) as [z [E [HI [Hd HS]]]].
  - simpl. rewrite ident_length. destruct b; [congruence|reflexivity].
  - intros i j Hi Hj. simpl in *.
    rewrite zsum_ext with (g := fun k => if (k =? i)%nat then ent b k j else 0%Z).
    + rewrite zsum_delta by auto. auto.
    + intros k Hk. rewrite ent_ident by auto. unfold delta. rewrite Nat.eqb_sym. destruct (k =? i); lia.
  - exists z. auto.
Qed.

(** The exclusion of negate_row_of_b is necessary: it negates a row of b but not
    of u (gso.h:291-312), see C32. *)
Theorem gso_transform_negate_refuted :
  exists b c l z,
    valid_input b c (ident (length b)) [] /\
    legal_run (gso_new b c (ident (length b)) [] false false) l /\
    grun (gso_new b c (ident (length b)) [] false false) l = Some z /\
    ~ is_product c (gb z) (gu z) b.
Proof.
  exists [[2;0];[0;3]]%Z, 2, [ODiscover; ODiscover; ONegate 1].
  eexists. split; [|split; [|split; [vm_compute; reflexivity|]]].
  - constructor; try lia; auto.
    + intros i Hi. simpl in Hi. do 2 (destruct i as [|i]; [reflexivity|]). lia.
    + right. split; auto. exists 2. apply (rect_ident 2).
  - apply legal_runb_ok. vm_compute. reflexivity.
  - intros H. specialize (H 1 1). vm_compute in H. assert (-3 = 3)%Z by (apply H; lia). lia.
Qed.

(** * C03 *)
Theorem gso_inverse_transform :
  forall b c int_gram force_long l,
    b <> [] -> 1 <= c -> rect c b ->
    let d := length b in
    legal_run (gso_new b c (ident d) (ident d) int_gram force_long) l ->
    exists z, grun (gso_new b c (ident d) (ident d) int_gram force_long) l = Some z /\
      inverse_transposed d (gu z) (gui z) /\
      (no_negate l -> forall i j, i < d -> j < c ->
         ent b i j = zsum d (fun k => (ent (gui z) k i * ent (gb z) k j)%Z)).
Proof.
  intros b c ig fl l Hne Hc Hb d HL. subst d.
  assert (HV : valid_input b c (ident (length b)) (ident (length b))).
  { constructor; auto; right; rewrite ident_length; split; auto; exists (length b); apply rect_ident. }
  assert (HT : (0 <? length (ident (length b))) = true) by (rewrite ident_length; destruct b; [congruence|reflexivity]).
  destruct (history_inverse l _ (valid_input_inv b c _ _ ig fl HV) HL) as [z [E [HI [Hd HS]]]]; auto.
  { unfold gd. simpl. split; intros i j Hi Hj.
    - rewrite zsum_ext with (g := fun k => if (k =? i)%nat then delta j k else 0%Z).
      + rewrite zsum_delta by auto. unfold delta. rewrite Nat.eqb_sym. auto.
      + intros k Hk. rewrite !ent_ident by auto. unfold delta. rewrite (Nat.eqb_sym i k). destruct (k =? i); lia.
    - rewrite zsum_ext with (g := fun k => if (k =? i)%nat then delta k j else 0%Z).
      + rewrite zsum_delta by auto. auto.
      + intros k Hk. rewrite !ent_ident by auto. unfold delta. destruct (k =? i); lia. }
  exists z. split; auto. split; [exact HS|].
  intros HN. destruct (gso_transform_tracks_basis b c (ident (length b)) ig fl l) as [z2 [E2 HP]]; auto.
  assert (z2 = z) by congruence. subst z2.
  intros i j Hi Hj. apply product_inverse with (n := c) (U := gu z) (B0 := b); auto.
Qed.

Example ex_inverse_hist : exists z,
  grun (gso_new ex_b 3 (ident 4) (ident 4) true false) ex_hist = Some z /\
  ent (gu z) 1 3 = 56%Z /\ gu z <> gui z.
Proof. eexists. split; [vm_compute; reflexivity|]. split; [vm_compute; reflexivity|vm_compute; discriminate]. Qed.

(** * C04 *)
Theorem gso_int_gram_matches :
  forall b c u ui int_gram force_long l,
    valid_input b c u ui ->
    legal_run (gso_new b c u ui int_gram force_long) l ->
    exists z, grun (gso_new b c u ui int_gram force_long) l = Some z /\
      forall i j, i < nkr z -> j <= i -> j < nsr z ->
        get_int_gram z i j = Some (inner c (nth i (gb z) []) (nth j (gb z) [])).
Proof.
  intros b c u ui ig fl l HV HL.
  destruct (history_lattice l _ (valid_input_inv b c u ui ig fl HV) HL) as [z [E [HI [Hd [Hc HS]]]]].
  exists z. split; auto. simpl in Hc. intros. rewrite <- Hc. apply get_int_gram_correct; auto.
Qed.

Example ex_gram : exists z,
  grun (gso_new ex_b 3 (ident 4) (ident 4) true false) ex_hist = Some z /\
  nkr z = 4 /\ nsr z = 4 /\ get_int_gram z 3 1 = Some (inner 3 (nth 3 (gb z) []) (nth 1 (gb z) [])) /\
  get_int_gram z 3 1 <> Some 0%Z.
Proof. eexists. split; [vm_compute; reflexivity|]. repeat split; vm_compute; try reflexivity; discriminate. Qed.

(** * C08 *)
(** See RotateSpec.v for [cyc]: firstn first ++ [middle..last] ++ [first..middle-1] ++ rest. *)
Theorem rotate_is_cyclic_shift :
  forall (A : Type) (v : list A) first middle last,
    first <= middle -> middle <= S last -> last < length v ->
    rotate_by_swap v first middle last = Some (cyc first middle last v).
Proof. exact @rotate_cyc. Qed.

Theorem rotate_left_is_cyclic_shift :
  forall (A : Type) (v : list A) first last,
    first <= last -> last < length v ->
    rotate_left_by_swap v first last = Some (cyc first (S first) last v).
Proof. exact @rotate_left_cyc. Qed.

Theorem rotate_right_is_cyclic_shift :
  forall (A : Type) (v : list A) first last,
    first <= last -> last < length v ->
    rotate_right_by_swap v first last = Some (cyc first last last v).
Proof. exact @rotate_right_cyc. Qed.

Example ex_rotate : rotate_by_swap [0;1;2;3;4;5;6] 1 3 5 = Some [0;3;4;5;1;2;6].
Proof. reflexivity. Qed.
Example ex_rotate_left : rotate_left_by_swap [0;1;2;3;4;5;6] 1 5 = Some [0;2;3;4;5;1;6].
Proof. reflexivity. Qed.
Example ex_rotate_right : rotate_right_by_swap [0;1;2;3;4;5;6] 1 5 = Some [0;5;1;2;3;4;6].
Proof. reflexivity. Qed.

(** Out-of-range arguments are undefined behaviour. *)
Example ex_rotate_ub : rotate_left_by_swap [0;1;2] 1 3 = None.
Proof. reflexivity. Qed.

(** move_row(old,new): the row at old is taken out and re-inserted at new. *)
Theorem move_row_moves :
  forall b c u ui int_gram force_long l old_r new_r,
    valid_input b c u ui ->
    legal_run (gso_new b c u ui int_gram force_long) l ->
    exists z, grun (gso_new b c u ui int_gram force_long) l = Some z /\
      (legal z (OMove old_r new_r) ->
       exists z', gstep z (OMove old_r new_r) = Some z' /\
         gb z' = insert_at new_r (nth old_r (gb z) []) (remove_at old_r (gb z)) /\
         (en_t z = true -> gu z' = insert_at new_r (nth old_r (gu z) []) (remove_at old_r (gu z))) /\
         (en_t z = true -> en_i z = true ->
            gui z' = insert_at new_r (nth old_r (gui z) []) (remove_at old_r (gui z)))).
Proof.
  intros b c u ui ig fl l o n HV HL.
  destruct (history_lattice l _ (valid_input_inv b c u ui ig fl HV) HL) as [z [E [HI _]]].
  exists z. split; auto. intros HM. apply move_row_exact; auto.
Qed.

(** row_swap(i,j) exchanges the two rows (in b and u). *)
Theorem row_swap_swaps :
  forall b c u ui int_gram force_long l i j,
    valid_input b c u ui ->
    legal_run (gso_new b c u ui int_gram force_long) l ->
    exists z, grun (gso_new b c u ui int_gram force_long) l = Some z /\
      (legal z (OSwap i j) ->
       exists z', gstep z (OSwap i j) = Some z' /\
         gb z' = upd (upd (gb z) i (nth j (gb z) [])) j (nth i (gb z) []) /\
         (en_t z = true -> gu z' = upd (upd (gu z) i (nth j (gu z) [])) j (nth i (gu z) []))).
Proof.
  intros b c u ui ig fl l o n HV HL.
  destruct (history_lattice l _ (valid_input_inv b c u ui ig fl HV) HL) as [z [E [HI _]]].
  exists z. split; auto. intros HM. apply row_swap_exact; auto.
Qed.

Example ex_move :
  legal (gso_new ex_b 3 [] [] false false) (OMove 0 2) /\
  (exists z, gstep (gso_new ex_b 3 [] [] false false) (OMove 0 2) = Some z /\
             gb z = [[7;0;2]; [1;1;9]; [4;1;0]; [0;5;-3]]%Z).
Proof. split; [apply legalb_ok; reflexivity|]. eexists. split; vm_compute; reflexivity. Qed.

(** * C09 *)
(** [documented_rowop] (GsoHistory.v): row i += (x * 2^e) * row j, as documented for each method. *)
Theorem row_ops_full_width :
  forall b c u ui int_gram fl l o i j x,
    valid_input b c u ui ->
    legal_run (gso_new b c u ui int_gram fl) l ->
    documented_rowop fl o = Some (i, j, x) ->
    exists z, grun (gso_new b c u ui int_gram fl) l = Some z /\
      (legal z o ->
       exists z', gstep z o = Some z' /\
         gb z' = upd (gb z) i (addmul_row x (nth i (gb z) []) (nth j (gb z) []))).
Proof.
  intros b c u ui ig fl l o i j x HV HL HO.
  destruct (history_lattice_fl l _ (valid_input_inv b c u ui ig fl HV) HL) as [z [E [HI HF]]].
  exists z. split; auto. intros HM. apply (rowop_exact fl); auto.
Qed.

(** A history with columns locked (early reduction): known columns 2 of 5. *)
Definition ex_lock_b : list (list Z) := [[2;0;0;0;0]; [5;1;0;0;0]; [9;9;1;7;0]; [3;3;3;3;3]]%Z.
Definition ex_lock_hist : list gop := [ODiscover; ODiscover; OLock; ODiscover; OAddmulSi 2 0 (-4); ODiscover].
Example ex_locked : legal_run (gso_new ex_lock_b 5 [] [] false false) ex_lock_hist /\
  exists z, grun (gso_new ex_lock_b 5 [] [] false false) ex_lock_hist = Some z /\
    nkc z = 2 /\ nkr z = 4 /\ locked z = true /\
    legal z (OAddmul2 3 1 (-3) 2) /\
    exists z', gstep z (OAddmul2 3 1 (-3) 2) = Some z' /\
     gb z' = [[2;0;0;0;0]; [5;1;0;0;0]; [1;9;1;7;0]; [-57;-9;3;3;3]]%Z.
Proof.
  split; [apply legal_runb_ok; vm_compute; reflexivity|].
  eexists. split; [vm_compute; reflexivity|]. repeat (split; [reflexivity|]).
  split; [apply legalb_ok; reflexivity|]. eexists; split; vm_compute; reflexivity.
Qed.

Print Assumptions gso_history_preserves_lattice.
Print Assumptions gso_transform_tracks_basis.
Print Assumptions gso_transform_negate_refuted.
Print Assumptions gso_inverse_transform.
Print Assumptions gso_int_gram_matches.
Print Assumptions rotate_is_cyclic_shift.
Print Assumptions rotate_left_is_cyclic_shift.
Print Assumptions rotate_right_is_cyclic_shift.
Print Assumptions move_row_moves.
Print Assumptions row_swap_swaps.
Print Assumptions row_ops_full_width.
