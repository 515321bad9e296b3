(** Grammar of matrix texts and its equivalence with the reader. *)
From Coq Require Import List ZArith Lia Arith Bool Ascii.
From Verif Require Import Util NumVectModel NumVectProofs MatrixModel MatrixProofs MatStore IoModel.
Import ListNotations.
Local Open Scope nat_scope.

(** ** Specification: the texts of integers, rows and matrices *)
Definition Blank (c : ascii) : Prop := In c (" " :: map ascii_of_nat [9; 10; 11; 12; 13])%char.
(** c is the digit with value d *)
Definition Digit (c : ascii) (d : Z) : Prop :=
  exists k, nth_error ["0"; "1"; "2"; "3"; "4"; "5"; "6"; "7"; "8"; "9"]%char k = Some c /\ d = Z.of_nat k.
Inductive Decimal : text -> Z -> Prop :=
| dec_one c d : Digit c d -> Decimal [c] d
| dec_snoc t n c d : Decimal t n -> Digit c d -> Decimal (t ++ [c]) (10 * n + d).
Definition Blanks (w : text) : Prop := Forall Blank w.
(** the text is not extended by another digit *)
Definition StopsHere (rest : text) : Prop := exists c rest', rest = c :: rest' /\ forall d, ~ Digit c d.
(** s = an integer z after white space, then rest *)
Inductive IntAt : text -> Z -> text -> Prop :=
| int_pos w t n rest : Blanks w -> Decimal t n -> StopsHere rest -> IntAt (w ++ t ++ rest) n rest
| int_neg w w2 t n rest : Blanks w -> Blanks w2 -> Decimal t n -> StopsHere rest ->
    IntAt (w ++ ["-"%char] ++ w2 ++ t ++ rest) (- n) rest.
Inductive ItemsAt {A} (item : text -> A -> text -> Prop) : text -> list A -> text -> Prop :=
| items_end w rest : Blanks w -> ItemsAt item (w ++ ["]"%char] ++ rest) [] rest
| items_cons s x s1 l rest : item s x s1 -> ItemsAt item s1 l rest -> ItemsAt item s (x :: l) rest.
Inductive ListAt {A} (item : text -> A -> text -> Prop) : text -> list A -> text -> Prop :=
| list_at w s l rest : Blanks w -> ItemsAt item s l rest -> ListAt item (w ++ ["["%char] ++ s) l rest.
Definition RowAt := ListAt IntAt.
Definition RowsAt := ListAt RowAt.

(** ** Characters *)
Lemma is_blank_spec c : is_blank c = true <-> Blank c.
Proof. destruct c as [[] [] [] [] [] [] [] []]; vm_compute; split; intros H; try discriminate; auto 10;
  repeat (destruct H as [H|H]; [discriminate H|]); contradiction. Qed.
Lemma is_digit_spec c : is_digit c = true <-> Digit c (digit_val c).
Proof.
  split.
  - intros H. exists (nat_of_ascii c - 48). split; [|reflexivity].
    destruct c as [[] [] [] [] [] [] [] []]; vm_compute in H |- *; congruence.
  - intros [k [H _]]. do 10 (destruct k; [cbn in H; injection H as <-; reflexivity|]). destruct k; discriminate.
Qed.
Lemma Digit_val c d : Digit c d -> d = digit_val c /\ is_digit c = true.
Proof. intros [k [H ->]]. do 10 (destruct k; [cbn in H; injection H as <-; split; reflexivity|]). destruct k; discriminate. Qed.
Lemma not_digit c : is_digit c = false <-> forall d, ~ Digit c d.
Proof.
  split.
  - intros H d Hd. apply Digit_val in Hd. destruct Hd; congruence.
  - intros H. destruct (is_digit c) eqn:E; auto. apply is_digit_spec in E. destruct (H _ E).
Qed.
Lemma digit_not_blank c : is_digit c = true -> is_blank c = false.
Proof. destruct c as [[] [] [] [] [] [] [] []]; vm_compute; congruence. Qed.

Lemma getc_spec s c s1 : getc s = Some (c, s1) <-> exists w, Blanks w /\ s = w ++ c :: s1 /\ ~ Blank c.
Proof.
  split.
  - revert c s1. induction s as [|a s IH]; cbn [getc]; intros c s1 H; [discriminate|].
    destruct (is_blank a) eqn:E.
    + destruct (IH _ _ H) as [w [Hw [Hs Hc]]]. exists (a :: w). split; [constructor; auto; now apply is_blank_spec|].
      subst. auto.
    + injection H as <- <-. exists []. split; [constructor|]. split; auto. intros B. apply is_blank_spec in B. congruence.
  - intros [w [Hw [-> Hc]]]. induction Hw as [|a w Ha Hw IH]; cbn [getc app].
    + destruct (is_blank c) eqn:E; auto. apply is_blank_spec in E. contradiction.
    + apply is_blank_spec in Ha. rewrite Ha. auto.
Qed.
Lemma getc_blanks w s : Blanks w -> getc (w ++ s) = getc s.
Proof. induction 1; cbn [app getc]; auto. apply is_blank_spec in H. now rewrite H. Qed.
Lemma getc_nb c s : is_blank c = false -> getc (c :: s) = Some (c, s).
Proof. intros H. cbn [getc]. now rewrite H. Qed.

Lemma dec_val_snoc t c : dec_val (t ++ [c]) = (10 * dec_val t + digit_val c)%Z.
Proof. unfold dec_val. now rewrite fold_left_app. Qed.
Lemma Decimal_digits t n : Decimal t n -> t <> [] /\ Forall (fun c => is_digit c = true) t /\ n = dec_val t.
Proof.
  induction 1.
  - apply Digit_val in H. destruct H as [-> H]. split; [discriminate|]. split; [auto|]. reflexivity.
  - destruct IHDecimal as [H1 [H2 H3]]. apply Digit_val in H0. destruct H0 as [-> H0]. split; [destruct t; discriminate|].
    split; [apply Forall_app; auto|]. rewrite dec_val_snoc. now rewrite H3.
Qed.
Lemma digits_Decimal t : t <> [] -> Forall (fun c => is_digit c = true) t -> Decimal t (dec_val t).
Proof.
  induction t as [|c t IH] using rev_ind; [congruence|]. intros _ H. apply Forall_app in H. destruct H as [H1 H2].
  inversion H2; subst. apply is_digit_spec in H3. destruct t as [|a t].
  - cbn [app]. replace (dec_val [c]) with (digit_val c); [now constructor|]. unfold dec_val. cbn [fold_left]. lia.
  - rewrite dec_val_snoc. constructor; auto. apply IH; auto. discriminate.
Qed.

Lemma get_digits_spec s : forall acc t rest, get_digits s acc = Some (t, rest) <->
  exists ds, t = acc ++ ds /\ s = ds ++ rest /\ Forall (fun c => is_digit c = true) ds /\ StopsHere rest.
Proof.
  induction s as [|c s IH]; intros acc t rest; cbn [get_digits].
  - split; [discriminate|]. intros [ds [_ [H [_ [c [r [-> _]]]]]]]. destruct ds; discriminate.
  - destruct (is_digit c) eqn:E.
    + rewrite IH. split.
      * intros [ds [-> [-> [H1 H2]]]]. exists (c :: ds). rewrite <- app_assoc. auto.
      * intros [ds [-> [H [H1 H2]]]]. destruct ds as [|a ds].
        { destruct H2 as [b [r [-> H2]]]. cbn in H. injection H as -> ->. apply not_digit in H2. congruence. }
        cbn in H. injection H as <- ->. inversion H1; subst. exists ds. rewrite <- app_assoc. auto.
    + split.
      * intros [= <- <-]. exists []. rewrite app_nil_r. repeat split; auto. exists c, s. split; auto. now apply not_digit.
      * intros [ds [-> [H [H1 H2]]]]. destruct ds as [|a ds]; [cbn in H; rewrite app_nil_r; congruence|].
        cbn in H. injection H as <- ->. inversion H1; congruence.
Qed.

Lemma minus_nb : is_blank "-" = false. Proof. reflexivity. Qed.
Lemma minus_nd : is_digit "-" = false. Proof. reflexivity. Qed.

(** ** The reader against the grammar *)
Lemma read_z_spec s z rest : read_z s = Some (z, rest) <-> IntAt s z rest.
Proof.
  split.
  - unfold read_z. destruct (getc s) as [[c s1]|] eqn:E; [|discriminate]. cbn [obind].
    apply getc_spec in E. destruct E as [w [Hw [-> Hc]]].
    destruct (Ascii.eqb_spec c c_minus).
    + destruct (getc s1) as [[d s2]|] eqn:E2; [|discriminate]. cbn [obind].
      apply getc_spec in E2. destruct E2 as [w2 [Hw2 [-> Hd]]].
      destruct (is_digit d) eqn:D; [|discriminate].
      destruct (get_digits s2 [d]) as [[t r]|] eqn:G; [|discriminate]. cbn [obind fst snd]. intros [= <- <-].
      apply get_digits_spec in G. destruct G as [ds [-> [-> [H1 H2]]]].
      subst c. change (w ++ c_minus :: w2 ++ d :: ds ++ r) with (w ++ ["-"%char] ++ w2 ++ ([d] ++ ds) ++ r).
      constructor; auto. apply digits_Decimal; [discriminate|]. constructor; auto.
    + cbn [obind]. destruct (is_digit c) eqn:D; [|discriminate].
      destruct (get_digits s1 [c]) as [[t r]|] eqn:G; [|discriminate]. cbn [obind fst snd]. intros [= <- <-].
      apply get_digits_spec in G. destruct G as [ds [-> [-> [H1 H2]]]].
      change (w ++ c :: ds ++ r) with (w ++ ([c] ++ ds) ++ r).
      constructor; auto. apply digits_Decimal; [discriminate|]. constructor; auto.
  - destruct 1 as [w t n rest Hw Ht Hr|w w2 t n rest Hw Hw2 Ht Hr]; unfold read_z; rewrite getc_blanks by auto.
    + apply Decimal_digits in Ht. destruct Ht as [H1 [H2 ->]]. destruct t as [|c t]; [congruence|].
      inversion H2; subst. cbn [app]. rewrite getc_nb by (apply digit_not_blank; auto). cbn [obind].
      destruct (Ascii.eqb_spec c c_minus); [subst; discriminate|]. cbn [obind]. rewrite H3.
      replace (get_digits (t ++ rest) [c]) with (Some (c :: t, rest)); [reflexivity|].
      symmetry. apply get_digits_spec. exists t. auto.
    + change (["-"%char] ++ w2 ++ t ++ rest) with ("-"%char :: w2 ++ t ++ rest). rewrite getc_nb by apply minus_nb.
      cbn [obind]. change (Ascii.eqb "-" c_minus) with true. cbv iota. rewrite getc_blanks by auto.
      apply Decimal_digits in Ht. destruct Ht as [H1 [H2 ->]]. destruct t as [|c t]; [congruence|].
      inversion H2; subst. cbn [app]. rewrite getc_nb by (apply digit_not_blank; auto). cbn [obind]. rewrite H3.
      replace (get_digits (t ++ rest) [c]) with (Some (c :: t, rest)); [reflexivity|].
      symmetry. apply get_digits_spec. exists t. auto.
Qed.

Lemma getc_len s c s1 : getc s = Some (c, s1) -> length s1 < length s.
Proof. intros H. apply getc_spec in H. destruct H as [w [_ [-> _]]]. rewrite app_length. cbn. lia. Qed.
Lemma IntAt_len s z rest : IntAt s z rest -> length rest < length s.
Proof.
  destruct 1 as [w t n rest _ H _|w w2 t n rest _ _ H _]; apply Decimal_digits in H; destruct H as [H _]; destruct t; try congruence;
    rewrite !app_length; cbn; rewrite ?app_length; lia.
Qed.
Lemma ItemsAt_len {A} (item : text -> A -> text -> Prop) s l rest :
  (forall s x r, item s x r -> length r < length s) -> ItemsAt item s l rest -> length rest < length s.
Proof. intros Hi. induction 1; [rewrite !app_length; cbn; lia|]. apply Hi in H. lia. Qed.
Lemma RowAt_len s l rest : RowAt s l rest -> length rest < length s.
Proof.
  destruct 1. apply (ItemsAt_len _ _ _ _ IntAt_len) in H0. rewrite !app_length. cbn. lia.
Qed.

(** an item starts with something else than white space and ']' *)
Definition item_head {A} (item : text -> A -> text -> Prop) : Prop :=
  forall s x r, item s x r -> exists c s1, getc s = Some (c, s1) /\ c <> c_close /\ item (c :: s1) x r.
(** leading blanks can be added *)
Definition item_blanks {A} (item : text -> A -> text -> Prop) : Prop :=
  forall w s x r, Blanks w -> item s x r -> item (w ++ s) x r.
Lemma IntAt_head : item_head IntAt.
Proof.
  intros s x r H. destruct H as [w t n rest Hw Ht Hr|w w2 t n rest Hw Hw2 Ht Hr].
  - rewrite getc_blanks by auto. pose proof Ht as Hd. apply Decimal_digits in Hd. destruct Hd as [H1 [H2 _]]. destruct t as [|c t]; [congruence|].
    inversion H2; subst. cbn [app]. rewrite getc_nb by (apply digit_not_blank; auto). exists c, (t ++ rest). split; auto.
    split; [intros ->; discriminate|]. change (c :: t ++ rest) with ([] ++ (c :: t) ++ rest). constructor; auto. constructor.
  - rewrite getc_blanks by auto. exists "-"%char, (w2 ++ t ++ rest). split; [reflexivity|]. split; [discriminate|].
    change ("-"%char :: w2 ++ t ++ rest) with ([] ++ ["-"%char] ++ w2 ++ t ++ rest). constructor; auto. constructor.
Qed.
Lemma IntAt_blanks : item_blanks IntAt.
Proof.
  intros v s x r Hv H. destruct H as [w t n rest Hw Ht Hr|w w2 t n rest Hw Hw2 Ht Hr]; rewrite app_assoc; constructor; auto;
    apply Forall_app; auto.
Qed.
Lemma RowAt_head : item_head RowAt.
Proof.
  intros s x r [w s0 l rest Hw H]. rewrite getc_blanks by auto. exists "["%char, s0. split; [reflexivity|]. split; [discriminate|].
  change ("["%char :: s0) with ([] ++ ["["%char] ++ s0). constructor; auto. constructor.
Qed.
Lemma RowAt_blanks : item_blanks RowAt.
Proof. intros v s x r Hv [w s0 l rest Hw H]. rewrite app_assoc. constructor; auto. apply Forall_app; auto. Qed.

Lemma close_getc w' rest : Blanks w' -> getc (w' ++ ["]"%char] ++ rest) = Some (c_close, rest).
Proof. intros H. rewrite getc_blanks by auto. reflexivity. Qed.
Lemma open_getc w' rest : Blanks w' -> getc (w' ++ ["["%char] ++ rest) = Some (c_open, rest).
Proof. intros H. rewrite getc_blanks by auto. reflexivity. Qed.

Lemma vec_loop_spec fuel : forall s v, length s < fuel ->
  vec_loop fuel s v <> NoFuel /\
  forall l rest, vec_loop fuel s v = Got l rest <-> exists l', l = v ++ l' /\ ItemsAt IntAt s l' rest.
Proof.
  induction fuel as [|fuel IH]; intros s v Hf; [lia|]. cbn [vec_loop].
  destruct (getc s) as [[c s1]|] eqn:E.
  - pose proof (getc_len _ _ _ E) as Hl. pose proof E as E'. apply getc_spec in E'. destruct E' as [w [Hw [Es Hc]]].
    destruct (Ascii.eqb_spec c c_close).
    + subst c. split; [discriminate|]. intros l rest. split.
      * intros [= <- <-]. exists []. rewrite app_nil_r. split; auto. subst s. exact (items_end IntAt w s1 Hw).
      * intros [l' [-> H]]. inversion H as [w' rest' Hw' Eq|sx xx s1x lx restx Hi _ Eq].
        { rewrite <- Eq in E. rewrite close_getc in E by auto. rewrite app_nil_r. congruence. }
        destruct (IntAt_head _ _ _ Hi) as [c [s2 [G [N _]]]]. rewrite E in G. injection G as <- <-. congruence.
    + destruct (read_z (c :: s1)) as [[z s2]|] eqn:R.
      * apply read_z_spec in R. pose proof (IntAt_len _ _ _ R) as L2. cbn [length] in L2.
        destruct (IH s2 (v ++ [z])) as [F1 F2]; [lia|]. split; auto. intros l rest. rewrite F2. split.
        { intros [l' [-> H]]. exists (z :: l'). rewrite <- app_assoc. split; auto.
          apply items_cons with s2; auto. subst s. apply (IntAt_blanks w (c :: s1)); auto. }
        { intros [l' [-> H]]. inversion H as [w' rest' Hw' Eq|sx x s3 l2 restx Hi Hr Eq].
          - rewrite <- Eq in E. rewrite close_getc in E by auto. congruence.
          - destruct (IntAt_head _ _ _ Hi) as [c' [s4 [G [N Hi']]]]. rewrite E in G. injection G as <- <-.
            apply read_z_spec in R. apply read_z_spec in Hi'. assert (Q : (z, s2) = (x, s3)) by congruence. injection Q as <- <-.
            exists l2. rewrite <- app_assoc. auto. }
      * split; [discriminate|]. intros l rest. split; [discriminate|]. intros [l' [-> H]].
        inversion H as [w' rest' Hw' Eq|sx x s3 l2 restx Hi Hr Eq].
        { rewrite <- Eq in E. rewrite close_getc in E by auto. congruence. }
        destruct (IntAt_head _ _ _ Hi) as [c' [s4 [G [N Hi']]]]. rewrite E in G. injection G as <- <-.
        apply read_z_spec in Hi'. congruence.
  - split; [discriminate|]. intros l rest. split; [discriminate|]. intros [l' [_ H]].
    inversion H as [w' rest' Hw' Eq|sx x s3 l2 restx Hi Hr Eq].
    + rewrite <- Eq in E. rewrite close_getc in E by auto. discriminate.
    + destruct (IntAt_head _ _ _ Hi) as [c' [s4 [G _]]]. congruence.
Qed.

Lemma read_vec_spec s : read_vec s <> NoFuel /\ forall l rest, read_vec s = Got l rest <-> RowAt s l rest.
Proof.
  unfold read_vec. destruct (getc s) as [[c s1]|] eqn:E.
  - pose proof E as E'. apply getc_spec in E'. destruct E' as [w [Hw [Es Hc]]].
    destruct (Ascii.eqb_spec c c_open).
    + subst c. destruct (vec_loop_spec (S (length s1)) s1 []) as [F1 F2]; [lia|]. split; auto. intros l rest. rewrite F2. split.
      * intros [l' [-> H]]. subst s. exact (list_at IntAt w s1 l' rest Hw H).
      * intros H. inversion H as [w' s' l' rest' Hw' Hi Eq]. exists l. split; auto.
        rewrite <- Eq in E. rewrite open_getc in E by auto. congruence.
    + split; [discriminate|]. intros l rest. split; [discriminate|]. intros H. inversion H as [w' s' l' rest' Hw' Hi Eq].
      rewrite <- Eq in E. rewrite open_getc in E by auto. congruence.
  - split; [discriminate|]. intros l rest. split; [discriminate|]. intros H. inversion H as [w' s' l' rest' Hw' Hi Eq].
    rewrite <- Eq in E. rewrite open_getc in E by auto. discriminate.
Qed.

Lemma row_loop_spec fuel : forall s M, length s < fuel ->
  exists M' o, row_loop fuel s M = Some (M', o) /\
  forall L rest, (M' = L /\ o = Some rest) <-> exists L', L = M ++ L' /\ ItemsAt RowAt s L' rest.
Proof.
  induction fuel as [|fuel IH]; intros s M Hf; [lia|]. cbn [row_loop].
  assert (CL : forall w' rest, Blanks w' -> getc (w' ++ ["]"%char] ++ rest) = Some (c_close, rest))
    by (intros; rewrite getc_blanks by auto; reflexivity).
  destruct (getc s) as [[c s1]|] eqn:E.
  - pose proof (getc_len _ _ _ E) as Hl. pose proof E as E'. apply getc_spec in E'. destruct E' as [w [Hw [Es Hc]]].
    destruct (Ascii.eqb_spec c c_close).
    + exists M, (Some s1). split; auto. subst c. intros L rest. split.
      * intros [<- [= <-]]. exists []. rewrite app_nil_r. split; auto. subst s. exact (items_end RowAt w s1 Hw).
      * intros [L' [-> H]]. inversion H as [w' rest' Hw' Eq|sx xx s1x lx restx Hi _ Eq].
        { rewrite <- Eq in E. rewrite CL in E by auto. rewrite app_nil_r. split; congruence. }
        destruct (RowAt_head _ _ _ Hi) as [c [s2 [G [N _]]]]. rewrite E in G. injection G as <- <-. congruence.
    + destruct (read_vec_spec (c :: s1)) as [R1 R2]. destruct (read_vec (c :: s1)) as [| |z s2] eqn:R; [congruence| |].
      * exists M, None. split; auto. intros L rest. split; [intros [_ H]; discriminate|]. intros [L' [-> H]]. exfalso.
        inversion H as [w' rest' Hw' Eq|sx x s3 l2 restx Hi Hr Eq].
        { rewrite <- Eq in E. rewrite CL in E by auto. congruence. }
        destruct (RowAt_head _ _ _ Hi) as [c' [s4 [G [N Hi']]]]. rewrite E in G. injection G as <- <-.
        apply R2 in Hi'. congruence.
      * assert (RZ : RowAt (c :: s1) z s2) by (now apply R2). pose proof (RowAt_len _ _ _ RZ) as L2. cbn [length] in L2.
        destruct (IH s2 (M ++ [z])) as [M' [o [F1 F2]]]; [lia|]. exists M', o. split; auto. intros L rest. rewrite F2. split.
        { intros [l' [-> H]]. exists (z :: l'). rewrite <- app_assoc. split; auto.
          apply items_cons with s2; auto. subst s. apply (RowAt_blanks w (c :: s1)); auto. }
        { intros [l' [-> H]]. inversion H as [w' rest' Hw' Eq|sx x s3 l2 restx Hi Hr Eq].
          - rewrite <- Eq in E. rewrite CL in E by auto. congruence.
          - destruct (RowAt_head _ _ _ Hi) as [c' [s4 [G [N Hi']]]]. rewrite E in G. injection G as <- <-.
            apply R2 in Hi'. injection Hi' as <- <-. exists l2. rewrite <- app_assoc. auto. }
  - exists M, None. split; auto. intros L rest. split; [intros [_ H]; discriminate|]. intros [L' [-> H]]. exfalso.
    inversion H as [w' rest' Hw' Eq|sx x s3 l2 restx Hi Hr Eq].
    + rewrite <- Eq in E. rewrite CL in E by auto. congruence.
    + destruct (RowAt_head _ _ _ Hi) as [c' [s4 [G _]]]. congruence.
Qed.

Lemma max_len_fold M : forall a, a <= fold_left (fun c (row : list Z) => Nat.max c (length row)) M a /\
  (forall row, In row M -> length row <= fold_left (fun c (row : list Z) => Nat.max c (length row)) M a) /\
  (fold_left (fun c (row : list Z) => Nat.max c (length row)) M a = a \/
   exists row, In row M /\ fold_left (fun c (row : list Z) => Nat.max c (length row)) M a = length row).
Proof.
  induction M as [|r M IH]; intros a; cbn [fold_left].
  - split; auto. split; auto. intros row [].
  - destruct (IH (Nat.max a (length r))) as [H1 [H2 H3]]. split; [lia|]. split.
    + intros row [<- |H]; auto. lia.
    + destruct H3 as [H3|[row [H3 H4]]].
      * destruct (Nat.max_spec a (length r)) as [[_ Q]|[_ Q]]; rewrite Q in H3 at 2; [right; exists r; split; cbn; auto|left; auto].
      * right. exists row. cbn. auto.
Qed.

Lemma finish_rows M i : i < length M -> length (nth i (ms (finish M)) []) = mc (finish M).
Proof.
  intros Hi. unfold finish. cbn [ms mc]. rewrite (map_nth_lt _ _ _ [] _ Hi). unfold pad.
  rewrite app_length, repeat_length. destruct (max_len_fold M 0) as [_ [H _]].
  specialize (H (nth i M []) (nth_In _ _ Hi)). unfold max_len. lia.
Qed.
