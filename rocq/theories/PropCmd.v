(** C81: the command line of the program fplll (main.cpp). *)
From Coq Require Import Ascii String List ZArith Bool Arith Lia.
From Verif Require Import CmdModel CmdSpec CmdProofs.
Import ListNotations.
Local Open Scope string_scope.
Local Open Scope Z_scope.

(** *** Integers on the command line *)
(** the digits in writing, and their value in positional notation *)
Definition digits_text (ds : list nat) : string := fold_right (fun d s => String (ascii_of_nat (48 + d)) s) "" ds.
Fixpoint digits_val (ds : list nat) : Z :=
  match ds with [] => 0 | d :: r => Z.of_nat d * 10 ^ Z.of_nat (length r) + digits_val r end.
(** a text that does not go on with a digit *)
Definition no_digit (s : string) : Prop := forall d t, (d < 10)%nat -> s <> String (ascii_of_nat (48 + d)) t.
Definition blanks (s : string) : Prop := Forall (fun c => In c [" "; "009"; "010"; "011"; "012"; "013"]%char) (list_ascii_of_string s).

Lemma digit_char_val : forall d, (d < 10)%nat -> digit_val (ascii_of_nat (48 + d)) = Some (Z.of_nat d) /\
  is_space (ascii_of_nat (48 + d)) = false /\ Ascii.eqb (ascii_of_nat (48 + d)) "-" = false /\ Ascii.eqb (ascii_of_nat (48 + d)) "+" = false.
Proof. intros d H. do 10 (destruct d as [|d]; [vm_compute; auto|]). lia. Qed.
Lemma not_digit_val : forall c, (forall d, (d < 10)%nat -> c <> ascii_of_nat (48 + d)) -> digit_val c = None.
Proof.
  intros c H. unfold digit_val. destruct (Nat.leb_spec 48 (nat_of_ascii c)) as [L|L]; [|reflexivity].
  destruct (Nat.leb_spec (nat_of_ascii c) 57) as [M|M]; [|reflexivity]. exfalso. apply (H (nat_of_ascii c - 48)%nat); [lia|].
  replace (48 + (nat_of_ascii c - 48))%nat with (nat_of_ascii c) by lia. now rewrite ascii_nat_embedding.
Qed.
Lemma read_digits_val : forall ds acc tail, Forall (fun d => (d < 10)%nat) ds -> no_digit tail ->
  read_digits acc (digits_text ds ++ tail) = acc * 10 ^ Z.of_nat (length ds) + digits_val ds.
Proof.
  induction ds as [|d ds IH]; intros acc tail Hd Ht; cbn [digits_text fold_right length digits_val append].
  - replace (acc * 10 ^ Z.of_nat 0 + 0) with acc by (change (10 ^ Z.of_nat 0) with 1; lia). destruct tail as [|c t]; cbn [read_digits]; [reflexivity|].
    rewrite not_digit_val; [reflexivity|]. intros d H E. apply (Ht d t H). now rewrite E.
  - inversion_clear Hd. cbn [read_digits]. destruct (digit_char_val d) as [-> _]; auto. fold (digits_text ds). rewrite IH by auto.
    rewrite Nat2Z.inj_succ, Z.pow_succ_r by lia. ring.
Qed.
(** C81: an integer is read as written: white space, a sign, decimal digits, anything else after it *)
Theorem text_int_right : forall sp sg ds tail, blanks sp -> In sg [""; "+"; "-"] -> ds <> [] -> Forall (fun d => (d < 10)%nat) ds -> no_digit tail ->
  text_int (sp ++ sg ++ digits_text ds ++ tail) = if String.eqb sg "-" then - digits_val ds else digits_val ds.
Proof.
  intros sp sg ds tail Hs Hg Hn Hd Ht.
  assert (S : skip_space (sp ++ sg ++ digits_text ds ++ tail) = (sg ++ digits_text ds ++ tail)%string).
  { induction sp as [|c sp IH]; cbn [append].
    - destruct ds as [|d ds]; [contradiction|]. inversion_clear Hd. destruct (digit_char_val d) as [_ [E _]]; auto.
      destruct Hg as [<-|[<-|[<-|[]]]]; [|reflexivity|reflexivity]. cbn [append digits_text fold_right skip_space]. rewrite E. reflexivity.
    - unfold blanks in Hs. cbn [list_ascii_of_string] in Hs. inversion_clear Hs as [|? ? Hc Hr]. cbn [skip_space].
      assert (E : is_space c = true) by (repeat (destruct Hc as [<-|Hc]; [reflexivity|]); destruct Hc). rewrite E. apply IH. exact Hr. }
  unfold text_int. rewrite S.
  pose proof (read_digits_val ds 0 tail Hd Ht) as R. rewrite Z.mul_0_l, Z.add_0_l in R.
  destruct Hg as [<-|[<-|[<-|[]]]]; cbn [append String.eqb Ascii.eqb Bool.eqb]; [|exact R|f_equal; exact R].
  destruct ds as [|d ds]; [contradiction|]. inversion_clear Hd. destruct (digit_char_val d) as [_ [_ [E1 E2]]]; auto.
  cbn [append digits_text fold_right] in *. rewrite E1, E2. exact R.
Qed.
(** C81: a text without a number is read as 0 *)
Theorem text_int_none : forall sp tail, blanks sp -> no_digit tail -> (forall c t, tail = String c t -> ~ In c ["+"; "-"; " "; "009"; "010"; "011"; "012"; "013"]%char) ->
  text_int (sp ++ tail) = 0.
Proof.
  intros sp tail Hs Ht Hc.
  assert (S : skip_space (sp ++ tail) = tail).
  { induction sp as [|c sp IH]; cbn [append].
    - destruct tail as [|c t]; [reflexivity|]. cbn [skip_space]. specialize (Hc c t eq_refl). unfold is_space.
      assert (N : forall n, In n [9; 10; 11; 12; 13; 32]%nat -> nat_of_ascii c <> n).
      { intros n Hn E. apply Hc. apply (f_equal ascii_of_nat) in E. rewrite ascii_nat_embedding in E. rewrite E.
        repeat (destruct Hn as [<-|Hn]; [cbn; tauto|]). destruct Hn. }
      pose proof (N 9%nat ltac:(cbn; tauto)). pose proof (N 10%nat ltac:(cbn; tauto)). pose proof (N 11%nat ltac:(cbn; tauto)). pose proof (N 12%nat ltac:(cbn; tauto)).
      pose proof (N 13%nat ltac:(cbn; tauto)). pose proof (N 32%nat ltac:(cbn; tauto)).
      destruct (Nat.eqb_spec (nat_of_ascii c) 32); [contradiction|]. cbn [orb].
      destruct (Nat.leb_spec 9 (nat_of_ascii c)); [|reflexivity]. destruct (Nat.leb_spec (nat_of_ascii c) 13); [lia|reflexivity].
    - unfold blanks in Hs. cbn [list_ascii_of_string] in Hs. inversion_clear Hs as [|? ? Hc' Hr]. cbn [skip_space].
      assert (E : is_space c = true) by (repeat (destruct Hc' as [<-|Hc']; [reflexivity|]); destruct Hc'). rewrite E. apply IH. exact Hr. }
  unfold text_int. rewrite S. destruct tail as [|c t]; [reflexivity|]. specialize (Hc c t eq_refl).
  destruct (Ascii.eqb_spec c "-"); [subst; exfalso; apply Hc; cbn; tauto|]. destruct (Ascii.eqb_spec c "+"); [subst; exfalso; apply Hc; cbn; tauto|].
  cbn [read_digits]. rewrite not_digit_val; [reflexivity|]. intros d H E. apply (Ht d t H). now rewrite E.
Qed.

Section C81.
Variable D : Type.
Variable atof : string -> D.
Variable dnz : D -> bool.
Variables (d_zero d_delta d_eta d_theta d_c d_gh d_one d_1e6 d_m1 : D).
Notation new := (opt_new D d_zero d_delta d_eta d_theta d_c d_gh).
Notation parse := (read_options D atof d_zero d_delta d_eta d_theta d_c d_gh).
Notation run := (main D atof dnz d_zero d_delta d_eta d_theta d_c d_gh d_one d_1e6 d_m1).

(** C81: a command line made of settings means, field by field, what the settings say. *)
Theorem cmd_meaning : forall prog ss, Forall proper ss -> (length (files ss) <= 1)%nat ->
  parse (prog :: flat_map words ss) = POk D (meaning D atof new ss).
Proof.
  intros prog ss Hp Hf. unfold read_options.
  apply (loop_complete D atof (prog :: flat_map words ss) ss); [reflexivity|exact Hp| |lia|lia].
  change (o_input D new) with (@None string). simpl; lia.
Qed.

(** C81: nothing else is accepted. *)
Theorem cmd_only : forall prog args o, parse (prog :: args) = POk D o ->
  exists ss, args = flat_map words ss /\ Forall proper ss /\ (length (files ss) <= 1)%nat /\ o = meaning D atof new ss.
Proof.
  intros prog args o H. unfold read_options in H.
  destruct (loop_sound D atof _ _ _ _ _ H) as (ss & Ha & Hb & Hc & Hd). exists ss.
  change (o_input D new) with (@None string) in Hc.
  split; [exact Ha|]. split; [exact Hb|]. split; [simpl in Hc; lia|exact Hd].
Qed.

(** C81: no argument outside argv is read: the only undefined behaviour is an integer that does
    not fit an int; the loop ends; the program exits with 0 only when help or version is asked for. *)
Theorem cmd_safe : forall argv,
  (parse argv = PUndef D -> exists w, In w argv /\ ~ int_text w) /\
  parse argv <> PFuel D /\
  (parse argv = PExit D 0 -> In "-h" argv \/ In "--help" argv \/ In "--version" argv).
Proof.
  intro argv. unfold read_options. split; [apply loop_undef|]. split; [apply loop_fuel; lia|apply loop_exit0].
Qed.

(** *** The output format *)
(** a matrix a format can ask for (main.cpp:53-78) *)
Inductive fmat := FB | FU | FV.
(** what a format asks for (main.cpp:49-86): a matrix (with commas or not), the status, an empty
    line, or a character without meaning *)
Inductive tok := TMat (m : fmat) (k : bool) | TStat | TBlank | TOther (c : ascii).
(** the letter of a matrix (main.cpp:53, 62, 71) *)
Definition mat_char (m : fmat) : ascii := match m with FB => "b" | FU => "u" | FV => "v" end.
(** how it is written (main.cpp:49-86) *)
Definition tok_text (t : tok) : string :=
  match t with
  | TMat m k => String (mat_char m) (if k then "k" else "")
  | TStat => "t" | TBlank => " " | TOther c => String c ""
  end.
(** the other characters (main.cpp:51-85) *)
Definition tok_ok (t : tok) : Prop :=
  match t with TOther c => c <> "b"%char /\ c <> "u"%char /\ c <> "v"%char /\ c <> "t"%char /\ c <> " "%char | _ => True end.
(** a plain matrix is not followed by the letter k (main.cpp:54) *)
Fixpoint toks_ok (l : list tok) : Prop :=
  match l with
  | [] => True
  | t :: r => tok_ok t /\ (match t, r with TMat _ false, TOther c :: _ => c <> "k"%char | _, _ => True end) /\ toks_ok r
  end.
(** the text of a format (main.cpp:25) *)
Definition format_text (l : list tok) : string := fold_right (fun t s => tok_text t ++ s)%string "" l.
(** the item for a token, for an action that can print u, v, the status, empty lines
    (main.cpp:49-86, 158-187, 208-220, 346-380) *)
Definition tok_item (u v t sp : bool) (k : tok) : list item :=
  match k with
  | TMat FB false => [IB] | TMat FB true => [IBk]
  | TMat FU false => if u then [IU] else [] | TMat FU true => if u then [IUk] else []
  | TMat FV false => if v then [IV] else [] | TMat FV true => if v then [IVk] else []
  | TStat => if t then [IStatus] else []
  | TBlank => if sp then [IBlank] else []
  | TOther _ => []
  end.

Lemma print_skip_k : forall u v t sp r, print_items u v t sp (String "k" r) = print_items u v t sp r.
Proof. reflexivity. Qed.

Lemma print_other : forall u v t sp c r, tok_ok (TOther c) -> print_items u v t sp (String c r) = print_items u v t sp r.
Proof.
  intros u v t sp c r (H1 & H2 & H3 & H4 & H5). simpl.
  apply Ascii.eqb_neq in H1, H2, H3, H4, H5. rewrite H1, H2, H3, H4, H5. reflexivity.
Qed.

(** C81: the items printed are those of the format, in its order. *)
Theorem format_items : forall u v t sp l, toks_ok l ->
  print_items u v t sp (format_text l) = flat_map (tok_item u v t sp) l.
Proof.
  intros u v t sp. induction l as [|k l IH]; intro H; [reflexivity|].
  destruct H as (H1 & H2 & H3). specialize (IH H3).
  destruct k as [m b| | |c].
  - destruct b.
    + destruct m; simpl.
      * f_equal. exact IH.
      * destruct u; simpl; [f_equal|]; exact IH.
      * destruct v; simpl; [f_equal|]; exact IH.
    + change (format_text (TMat m false :: l)) with (String (mat_char m) (format_text l)).
      assert (Hk : forall r, format_text l <> String "k" r).
      { intros r E. destruct l as [|k' l']; [discriminate E|]. destruct k' as [m' b'| | |c'].
        - destruct m'; discriminate E.
        - discriminate E.
        - discriminate E.
        - simpl in E. injection E as E1 E2. exact (H2 E1). }
      assert (Hp : forall (c : bool) x y, (if c then match format_text l with
          | String k r' => if Ascii.eqb k "k" then y :: print_items u v t sp r' else x :: print_items u v t sp (format_text l)
          | EmptyString => x :: print_items u v t sp (format_text l) end else print_items u v t sp (format_text l))
          = ((if c then [x] else []) ++ flat_map (tok_item u v t sp) l)%list).
      { intros c x y. destruct c; [|exact IH]. destruct (format_text l) as [|k' r] eqn:E.
        - simpl. f_equal. exact IH.
        - destruct (Ascii.eqb k' "k") eqn:Ek.
          + apply Ascii.eqb_eq in Ek. subst k'. exfalso. exact (Hk r eq_refl).
          + simpl app. f_equal. exact IH. }
      destruct m.
      * exact (Hp true IB IBk).
      * refine (eq_trans (Hp u IU IUk) _). destruct u; reflexivity.
      * refine (eq_trans (Hp v IV IVk) _). destruct v; reflexivity.
  - simpl. destruct t; simpl; [f_equal|]; exact IH.
  - simpl. destruct sp; simpl; [f_equal|]; exact IH.
  - change (format_text (TOther c :: l)) with (String c (format_text l)). rewrite (print_other u v t sp c _ H1). exact IH.
Qed.

(** every format is read as such a list *)
Theorem format_read : forall f, exists l, toks_ok l /\ f = format_text l.
Proof.
  assert (G : forall n f, (String.length f <= n)%nat -> exists l, toks_ok l /\ f = format_text l).
  { induction n as [|n IH]; intros f Hf.
    - destruct f; [|simpl in Hf; lia]. exists []. split; [exact I|reflexivity].
    - destruct f as [|c f]; [exists []; split; [exact I|reflexivity]|]. simpl in Hf.
      assert (M : forall m, c = mat_char m -> exists l, toks_ok l /\ String c f = format_text l).
      { intros m ->. destruct f as [|k r].
        - exists [TMat m false]. split; [simpl; auto|reflexivity].
        - destruct (Ascii.eqb k "k") eqn:Ek.
          + apply Ascii.eqb_eq in Ek. subst k. destruct (IH r) as (l & Hl & ->); [simpl in Hf; lia|].
            exists (TMat m true :: l). split; [simpl; auto|reflexivity].
          + destruct (IH (String k r)) as (l & Hl & E); [lia|]. exists (TMat m false :: l).
            split; [|simpl; f_equal; exact E]. split; [exact I|]. split; [|exact Hl].
            destruct l as [|t l]; [exact I|]. destruct t as [m' b'| | |c']; try exact I.
            simpl in E. injection E as E1 E2. subst c'. intros ->. discriminate Ek. }
      destruct (ascii_dec c "b") as [E|Nb]; [exact (M FB E)|].
      destruct (ascii_dec c "u") as [E|Nu]; [exact (M FU E)|].
      destruct (ascii_dec c "v") as [E|Nv]; [exact (M FV E)|].
      destruct (IH f) as (l & Hl & ->); [lia|].
      destruct (ascii_dec c "t") as [->|Nt]; [exists (TStat :: l); split; [simpl; auto|reflexivity]|].
      destruct (ascii_dec c " ") as [->|Ns]; [exists (TBlank :: l); split; [simpl; auto|reflexivity]|].
      exists (TOther c :: l). split; [simpl; tauto|reflexivity]. }
  intro f. exact (G (String.length f) f (le_n _)).
Qed.

(** *** The call of the library *)
Lemma print_has_u : forall v t sp f i, In i (print_items true v t sp f) -> i = IU \/ i = IUk -> has_chr "u" f = true.
Proof.
  intros v t sp f i Hi He. destruct (format_read f) as (l & Hl & ->). rewrite format_items in Hi by exact Hl.
  apply in_flat_map in Hi. destruct Hi as (k & Hk & Hi).
  assert (Hm : exists b, k = TMat FU b).
  { destruct k as [[] []| | |c]; try (exists true; reflexivity); try (exists false; reflexivity); exfalso; simpl in Hi;
      try (destruct v); try (destruct t); try (destruct sp); simpl in Hi; intuition congruence. }
  destruct Hm as (b & ->). clear Hi He Hl. induction l as [|x l IH]; [contradiction|].
  destruct Hk as [->|Hk].
  - reflexivity.
  - specialize (IH Hk). change (format_text (x :: l)) with (tok_text x ++ format_text l)%string.
    assert (A : forall p q, has_chr "u" q = true -> has_chr "u" (p ++ q) = true).
    { induction p as [|a p IHp]; intros q Hq; [exact Hq|]. simpl. rewrite (IHp q Hq). apply orb_true_r. }
    exact (A _ _ IH).
Qed.
Lemma print_has_v : forall u t sp f i, In i (print_items u true t sp f) -> i = IV \/ i = IVk -> has_chr "v" f = true.
Proof.
  intros u t sp f i Hi He. destruct (format_read f) as (l & Hl & ->). rewrite format_items in Hi by exact Hl.
  apply in_flat_map in Hi. destruct Hi as (k & Hk & Hi).
  assert (Hm : exists b, k = TMat FV b).
  { destruct k as [[] []| | |c]; try (exists true; reflexivity); try (exists false; reflexivity); exfalso; simpl in Hi;
      try (destruct u); try (destruct t); try (destruct sp); simpl in Hi; intuition congruence. }
  destruct Hm as (b & ->). clear Hi He Hl. induction l as [|x l IH]; [contradiction|].
  destruct Hk as [->|Hk].
  - reflexivity.
  - specialize (IH Hk). change (format_text (x :: l)) with (tok_text x ++ format_text l)%string.
    assert (A : forall p q, has_chr "v" q = true -> has_chr "v" (p ++ q) = true).
    { induction p as [|a p IHp]; intros q Hq; [exact Hq|]. simpl. rewrite (IHp q Hq). apply orb_true_r. }
    exact (A _ _ IH).
Qed.

(** the transforms a call computes (main.cpp:34-48, 156, 330-345) *)
Definition computes_u (c : call D) : bool :=
  match c with CallLll _ u _ _ _ _ _ _ _ | CallHlll _ u _ _ _ _ _ _ _ _ _ _ | CallBkz _ u _ _ _ _ _ _ _ _ _ _ => u | _ => false end.
(** main.cpp:34-48, 330-345 *)
Definition computes_v (c : call D) : bool :=
  match c with CallLll _ _ v _ _ _ _ _ _ | CallHlll _ _ v _ _ _ _ _ _ _ _ _ => v | _ => false end.

(** C81: a transform that is printed has been asked for. *)
Theorem printed_is_computed : forall zl zd valid target argv c out fail,
  run argv zl zd valid target = MRun D c out fail ->
  (In IU out \/ In IUk out -> computes_u c = true) /\ (In IV out \/ In IVk out -> computes_v c = true).
Proof.
  intros zl zd valid target argv c out fail H. unfold main in H.
  assert (S : forall f i, In i (print_svp f) -> i = ICoord \/ i = ISol \/ i = IStatus \/ i = IBlank).
  { induction f as [|a f IH]; intros i Hi; [contradiction|]. simpl in Hi.
    destruct (Ascii.eqb a "c"); [destruct Hi as [<-|Hi]; auto|].
    destruct (Ascii.eqb a "s"); [destruct Hi as [<-|Hi]; auto|].
    destruct (Ascii.eqb a "t"); [destruct Hi as [<-|Hi]; auto|].
    destruct (Ascii.eqb a " "); [destruct Hi as [<-|Hi]; auto|]. exact (IH i Hi). }
  assert (N : forall t sp f i, In i (print_items false false t sp f) -> i <> IU /\ i <> IUk /\ i <> IV /\ i <> IVk).
  { intros t sp f i Hi. destruct (format_read f) as (l & Hl & ->). rewrite format_items in Hi by exact Hl.
    apply in_flat_map in Hi. destruct Hi as (k & Hk & Hi).
    destruct k as [[] []| | |ch]; simpl in Hi; try (destruct t); try (destruct sp);
      simpl in Hi; intuition congruence. }
  assert (A : forall mpz o, run_action D dnz d_one d_1e6 d_m1 valid target mpz o = MRun D c out fail ->
    (In IU out \/ In IUk out -> computes_u c = true) /\ (In IV out \/ In IVk out -> computes_v c = true)).
  { intros mpz o Ho. unfold run_action in Ho. destruct valid; cbn [negb] in Ho; [|discriminate Ho].
    destruct (o_action D o).
    - unfold do_lll in Ho. injection Ho as <- <- <-. cbn [computes_u computes_v]. split; intros [Hi|Hi].
      + apply print_has_u in Hi; [rewrite Hi; apply orb_true_r|auto].
      + apply print_has_u in Hi; [rewrite Hi; apply orb_true_r|auto].
      + apply print_has_v in Hi; [exact Hi|auto].
      + apply print_has_v in Hi; [exact Hi|auto].
    - unfold do_hkz in Ho. destruct mpz; cbn [negb] in Ho; [|discriminate Ho]. injection Ho as <- <- <-.
      split; intros [Hi|Hi]; apply N in Hi; tauto.
    - unfold do_bkz in Ho. destruct mpz; cbn [negb] in Ho; [|discriminate Ho].
      destruct (0 <? o_block D o); cbn [negb] in Ho; [|discriminate Ho]. injection Ho as <- <- <-.
      cbn [computes_u computes_v]. split; intros [Hi|Hi].
      + apply print_has_u in Hi; [exact Hi|auto].
      + apply print_has_u in Hi; [exact Hi|auto].
      + exfalso. destruct (format_read (format_of D o "b")) as (l & Hl & E). rewrite E, format_items in Hi by exact Hl.
        apply in_flat_map in Hi. destruct Hi as (k & Hk & Hi). destruct k as [[] []| | |ch]; simpl in Hi; intuition discriminate.
      + exfalso. destruct (format_read (format_of D o "b")) as (l & Hl & E). rewrite E, format_items in Hi by exact Hl.
        apply in_flat_map in Hi. destruct Hi as (k & Hk & Hi). destruct k as [[] []| | |ch]; simpl in Hi; intuition discriminate.
    - unfold do_svpcvp in Ho. destruct mpz; cbn [negb] in Ho; [|discriminate Ho]. injection Ho as <- <- <-.
      split; intros [Hi|Hi]; apply S in Hi; intuition discriminate.
    - unfold do_svpcvp in Ho. destruct mpz; cbn [negb] in Ho; [|discriminate Ho]. injection Ho as <- <- <-.
      split; intros [Hi|Hi]; apply S in Hi; intuition discriminate.
    - unfold do_hlll in Ho. injection Ho as <- <- <-. cbn [computes_u computes_v]. split; intros [Hi|Hi].
      + apply print_has_u in Hi; [rewrite Hi; apply orb_true_r|auto].
      + apply print_has_u in Hi; [rewrite Hi; apply orb_true_r|auto].
      + apply print_has_v in Hi; [exact Hi|auto].
      + apply print_has_v in Hi; [exact Hi|auto].
    - unfold do_prune in Ho. destruct mpz; cbn [negb] in Ho; [|discriminate Ho].
      destruct (o_pstart D o), (o_pend D o), (o_pnodes D o), (o_pprob D o); try discriminate Ho.
      injection Ho as <- <- <-. split; intros [Hi|Hi]; contradiction. }
  destruct (parse argv) as [o|co| |] eqn:Ep; try discriminate H.
  destruct (o_int D o); [exact (A _ _ H)| |].
  - destruct zl; [exact (A _ _ H)|discriminate H].
  - destruct zd; [exact (A _ _ H)|discriminate H].
Qed.

(** C81: without the four options of the pruner its action reads indeterminate values; with them
    it is defined. *)
Theorem pruner_defined : forall zl zd target prog ss, Forall proper ss -> (length (files ss) <= 1)%nat ->
  let o := meaning D atof new ss in o_action D o = ACTION_PRU -> o_int D o = ZT_MPZ ->
  (run (prog :: flat_map words ss) zl zd true target <> MUndef D <->
   (exists w, In (SPruStart w) ss) /\ (exists w, In (SPruEnd w) ss) /\
   (exists w, In (SPruNodes w) ss) /\ (exists w, In (SPruProb w) ss)).
Proof.
  intros zl zd target prog ss Hp Hf o Ha Hi.
  assert (F : forall A (f : setting -> option (option A)), (forall s, f s <> Some None) ->
    (final f None ss <> None <-> exists s, In s ss /\ f s <> None)).
  { intros A f Hn. clear Hp Hf o Ha Hi.
    assert (G : forall d, final f d ss <> None <-> (d <> None \/ exists s, In s ss /\ f s <> None)).
    { induction ss as [|s ss' IH]; intro d; simpl.
      - split; [auto|intros [H|(s & [] & _)]; exact H].
      - rewrite IH. split.
        + intros [H|(x & Hx & H)]; [|right; eauto].
          destruct (f s) as [y|] eqn:E; [right; exists s; split; [auto|rewrite E; discriminate]|auto].
        + intros [H|(x & [->|Hx] & H)].
          * destruct (f s) as [y|] eqn:E; [left; intros ->; exact (Hn s E)|auto].
          * left. destruct (f x) as [y|] eqn:E; [intros ->; exact (Hn x E)|contradiction].
          * right; eauto. }
    rewrite G. split; [intros [H|H]; [contradiction|exact H]|auto]. }
  unfold main. rewrite (cmd_meaning prog ss Hp Hf). fold o. rewrite Hi.
  unfold run_action. cbn [negb]. rewrite Ha. unfold do_prune. cbn [negb].
  pose proof (F Z (fun s => match s with SPruStart w => Some (Some (text_int w)) | _ => None end)
    ltac:(intros []; discriminate)) as F1.
  pose proof (F Z (fun s => match s with SPruEnd w => Some (Some (text_int w)) | _ => None end)
    ltac:(intros []; discriminate)) as F2.
  pose proof (F D (fun s => match s with SPruNodes w => Some (Some (atof w)) | _ => None end)
    ltac:(intros []; discriminate)) as F3.
  pose proof (F D (fun s => match s with SPruProb w => Some (Some (atof w)) | _ => None end)
    ltac:(intros []; discriminate)) as F4.
  change (o_pstart D o) with (final (fun s => match s with SPruStart w => Some (Some (text_int w)) | _ => None end) None ss).
  change (o_pend D o) with (final (fun s => match s with SPruEnd w => Some (Some (text_int w)) | _ => None end) None ss).
  change (o_pnodes D o) with (final (fun s => match s with SPruNodes w => Some (Some (atof w)) | _ => None end) None ss).
  change (o_pprob D o) with (final (fun s => match s with SPruProb w => Some (Some (atof w)) | _ => None end) None ss).
  assert (X1 : (exists s, In s ss /\ match s with SPruStart w => Some (Some (text_int w)) | _ => None end <> None) <-> exists w, In (SPruStart w) ss).
  { split; [intros (s & Hs & H); destruct s; try contradiction; eauto|intros (w & Hw); eexists; split; [exact Hw|discriminate]]. }
  assert (X2 : (exists s, In s ss /\ match s with SPruEnd w => Some (Some (text_int w)) | _ => None end <> None) <-> exists w, In (SPruEnd w) ss).
  { split; [intros (s & Hs & H); destruct s; try contradiction; eauto|intros (w & Hw); eexists; split; [exact Hw|discriminate]]. }
  assert (X3 : (exists s, In s ss /\ match s with SPruNodes w => Some (Some (atof w)) | _ => None end <> None) <-> exists w, In (SPruNodes w) ss).
  { split; [intros (s & Hs & H); destruct s; try contradiction; eauto|intros (w & Hw); eexists; split; [exact Hw|discriminate]]. }
  assert (X4 : (exists s, In s ss /\ match s with SPruProb w => Some (Some (atof w)) | _ => None end <> None) <-> exists w, In (SPruProb w) ss).
  { split; [intros (s & Hs & H); destruct s; try contradiction; eauto|intros (w & Hw); eexists; split; [exact Hw|discriminate]]. }
  rewrite X1 in F1. rewrite X2 in F2. rewrite X3 in F3. rewrite X4 in F4. rewrite <- F1, <- F2, <- F3, <- F4.
  destruct (final _ None ss) as [a|]; [|split; [intro H; exfalso; exact (H eq_refl)|intros (H & _); exfalso; exact (H eq_refl)]].
  destruct (final _ None ss) as [b|]; [|split; [intro H; exfalso; exact (H eq_refl)|intros (_ & H & _); exfalso; exact (H eq_refl)]].
  destruct (final _ None ss) as [x|]; [|split; [intro H; exfalso; exact (H eq_refl)|intros (_ & _ & H & _); exfalso; exact (H eq_refl)]].
  destruct (final _ None ss) as [y|]; [|split; [intro H; exfalso; exact (H eq_refl)|intros (_ & _ & _ & H); exfalso; exact (H eq_refl)]].
  split; [intros _; repeat split; discriminate|intros _; discriminate].
Qed.

(** C81: "-r: was the number of rows (ignored)" says the help; -r sets the constant c of HLLL. *)
Theorem option_r_sets_c : forall w, parse ["fplll"; "-r"; w] = POk D (set_c D new (atof w)) /\ parse ["fplll"] = POk D new.
Proof. intro w. split; reflexivity. Qed.

(** C81: "-nolll: does not apply initial LLL-reduction (for bkz, hkz and svp)": for hkz it does
    nothing, LLL is applied. *)
Theorem nolll_hkz_refuted : exists c, run ["fplll"; "-a"; "hkz"; "-nolll"] true true true false = MRun D c [IB] [IB] /\
  run ["fplll"; "-a"; "hkz"] true true true false = MRun D c [IB] [IB] /\
  exists fl ft prec, c = CallHkz D fl ft prec /\ bkz_runs_lll (hkz_bkz_flags fl) = true.
Proof.
  eexists. split; [reflexivity|]. split; [reflexivity|]. do 3 eexists. split; [reflexivity|]. vm_compute. reflexivity.
Qed.

Lemma all_bits_1 : forall ss z, Z.testbit z 1 = false -> Z.testbit (all_bits z ss) 1 = false.
Proof.
  induction ss as [|s ss IH]; intros z H; [exact H|]. simpl. apply IH. rewrite Z.lor_spec, H.
  destruct s as [[]| | | | | | | | | | | | | | | | | | | | | | | | | |]; reflexivity.
Qed.

(** C81: for bkz it decides whether LLL is run first. *)
Theorem nolll_bkz : forall prog args o u b s d fl du gh lo ti ft pr out fail,
  parse (prog :: args) = POk D o -> do_bkz D true o = MRun D (CallBkz D u b s d fl du gh lo ti ft pr) out fail ->
  bkz_runs_lll fl = negb (o_nolll D o).
Proof.
  intros prog args o u b s d fl du gh lo ti ft pr out fail Hp H. unfold do_bkz in H. cbn [negb] in H.
  destruct (0 <? o_block D o); cbn [negb] in H; [|discriminate H].
  injection H; clear H; intros; subst fl.
  assert (T : Z.testbit (o_flags D o) 1 = false).
  { destruct (cmd_only prog args o Hp) as (ss & _ & _ & _ & ->). apply all_bits_1. reflexivity. }
  unfold bkz_runs_lll, has_flag. rewrite negb_involutive.
  set (z := Z.lor (Z.lor (o_flags D o) (when (o_verbose D o) BKZ_VERBOSE)) (when (o_nolll D o) BKZ_NO_LLL)).
  assert (Tz : Z.testbit z 1 = o_nolll D o).
  { unfold z. rewrite !Z.lor_spec, T. destruct (o_verbose D o), (o_nolll D o); reflexivity. }
  destruct (Z.land z BKZ_NO_LLL =? 0) eqn:E.
  - apply Z.eqb_eq in E. apply (f_equal (fun x => Z.testbit x 1)) in E. rewrite Z.land_spec, Tz, Z.testbit_0_l in E.
    change (Z.testbit BKZ_NO_LLL 1) with true in E. rewrite andb_true_r in E. rewrite E. reflexivity.
  - destruct (o_nolll D o); [reflexivity|]. exfalso. apply Z.eqb_neq in E. apply E. apply Z.bits_inj_0. intro n.
    rewrite Z.land_spec. destruct (Z.eq_dec n 1) as [->|Hn]; [rewrite Tz; reflexivity|].
    destruct (Z_lt_le_dec n 0) as [Hneg|Hpos]; [rewrite (Z.testbit_neg_r BKZ_NO_LLL) by lia; apply andb_false_r|].
    replace (Z.testbit BKZ_NO_LLL n) with false; [apply andb_false_r|]. symmetry.
    change BKZ_NO_LLL with (2 ^ 1). apply Z.pow2_bits_false. lia.
Qed.

(** C81: a later -a does not undo an earlier one: "-a sld ... -a bkz" still runs slide reduction. *)
Theorem last_action_refuted : exists o o1, parse ["fplll"; "-a"; "sld"; "-a"; "bkz"] = POk D o /\
  parse ["fplll"; "-a"; "bkz"] = POk D o1 /\ has_flag (o_flags D o) BKZ_SLD_RED = true /\ has_flag (o_flags D o1) BKZ_SLD_RED = false.
Proof. do 2 eexists. split; [reflexivity|]. split; [reflexivity|]. split; reflexivity. Qed.

(** C81: closest vector with an empty target computes a shortest vector. *)
Theorem cvp_empty_target_refuted : exists l u f g out fail,
  run ["fplll"; "-a"; "cvp"] true true true false = MRun D (CallSvp D l u f g) out fail.
Proof. do 6 eexists. reflexivity. Qed.
(** *** The call of the library *)
Lemma MRun_inj : forall c o f c' o' f', MRun D c o f = MRun D c' o' f' -> c = c'.
Proof. intros c o f c' o' f' H. injection H. auto. Qed.
Lemma all_bits_testbit : forall ss z k, Z.testbit (all_bits z ss) k = (Z.testbit z k || existsb (fun s => Z.testbit (flag_bits s) k) ss)%bool.
Proof.
  induction ss as [|s ss IH]; intros z k; cbn [all_bits existsb]; [now rewrite orb_false_r|]. rewrite IH, Z.lor_spec. now rewrite orb_assoc.
Qed.
Lemma final_flag : forall (p : setting -> option bool) (q : setting -> Prop) ss b,
  (forall s, p s = Some true /\ q s \/ p s = None /\ ~ q s) ->
  (final p b ss = true <-> b = true \/ exists s, In s ss /\ q s).
Proof.
  intros p q ss. induction ss as [|s ss IH]; intros b H; cbn [final].
  - split; [auto|]. intros [E|[s [[] _]]]; auto.
  - rewrite (IH _ H). destruct (H s) as [[-> Hq]|[-> Hq]].
    + split; [intros _; right; exists s; split; [left|]; auto|auto].
    + split; intros [E|[s' [Hi Hs]]]; auto.
      * right. exists s'. split; [right|]; auto.
      * destruct Hi as [->|Hi]; [contradiction|]. right. exists s'. auto.
Qed.
Lemma has_flag_bit : forall z k, 0 <= k -> has_flag z (2 ^ k) = Z.testbit z k.
Proof.
  intros z k Hk. unfold has_flag. destruct (Z.testbit z k) eqn:T.
  - apply negb_true_iff, Z.eqb_neq. intros E. apply (f_equal (fun x => Z.testbit x k)) in E. rewrite Z.land_spec, T, Z.testbit_0_l, Z.pow2_bits_true in E by lia. discriminate E.
  - apply negb_false_iff, Z.eqb_eq. apply Z.bits_inj_0. intro n. rewrite Z.land_spec. destruct (Z.eq_dec n k) as [->|Hn]; [now rewrite T|].
    rewrite Z.pow2_bits_false by lia. apply andb_false_r.
Qed.
(** the value that reaches the library for a flag of BKZ: the settings that raise the bit *)
Definition raises (k : Z) (ss : list setting) : Prop := exists s, In s ss /\ Z.testbit (flag_bits s) k = true.
Lemma raises_bit : forall ss k, Z.testbit (all_bits 0 ss) k = true <-> raises k ss.
Proof.
  intros ss k. rewrite all_bits_testbit, Z.testbit_0_l. cbn [orb]. rewrite existsb_exists. reflexivity.
Qed.
(** the parameters of the numerical routines, from the settings: the last value given, or
    the default *)
Definition set_delta_of ss := final (fun s => match s with SDelta _ w => Some (atof w) | _ => None end) d_delta ss.
Definition set_eta_of ss := final (fun s => match s with SEta _ w => Some (atof w) | _ => None end) d_eta ss.
Definition set_theta_of ss := final (fun s => match s with STheta _ w => Some (atof w) | _ => None end) d_theta ss.
Definition set_c_of ss := final (fun s => match s with SC _ w => Some (atof w) | _ => None end) d_c ss.
Definition set_gh_of ss := final (fun s => match s with SGh w => Some (atof w) | _ => None end) d_gh ss.
Definition set_time_of ss := final (fun s => match s with STime w => Some (atof w) | _ => None end) d_zero ss.
Definition set_prec_of ss := final (fun s => match s with SPrec w => Some (text_int w) | _ => None end) 0 ss.
Definition set_block_of ss := final (fun s => match s with SBlock w => Some (text_int w) | _ => None end) 0 ss.
Definition set_loops_of ss := final (fun s => match s with SLoops w => Some (text_int w) | _ => None end) 0 ss.
Definition set_dump_of ss := final (fun s => match s with SDump w => Some w | _ => None end) "" ss.
Definition set_strat_of ss := final (fun s => match s with SStrat w => Some w | _ => None end) "" ss.
Definition set_siegel_of ss := final (fun s => match s with SLovasz w => Some (text_int w =? 0) | _ => None end) false ss.
Definition set_ft_of ss := final (fun s => match s with SFt f => Some match f with FMpfr => FT_MPFR | FDpe => FT_DPE | FDd => FT_DD
       | FQd => FT_QD | FDouble => FT_DOUBLE | FLongdouble => FT_LONG_DOUBLE end | _ => None end) FT_DEFAULT ss.
Definition set_method_of ss := final (fun s => match s with SMethod m => Some match m with MWrapper => LM_WRAPPER | MProved => LM_PROVED
       | MHeuristic => LM_HEURISTIC | MFast => LM_FAST end | _ => None end) LM_WRAPPER ss.
Definition set_action_of ss := final (fun s => match s with SAction a => Some a | _ => None end) NLll ss.

Lemma action_meaning : forall ss, o_action D (meaning D atof new ss) = match set_action_of ss with NLll => ACTION_LLL | NHkz => ACTION_HKZ
       | NBkz | NSdb | NSld => ACTION_BKZ | NSvp => ACTION_SVP | NCvp => ACTION_CVP | NHlll => ACTION_HLLL | NPru => ACTION_PRU end.
Proof.
  intros ss. unfold meaning, set_action_of. cbn [o_action]. change (o_action D new) with (match NLll with NLll => ACTION_LLL | NHkz => ACTION_HKZ
       | NBkz | NSdb | NSld => ACTION_BKZ | NSvp => ACTION_SVP | NCvp => ACTION_CVP | NHlll => ACTION_HLLL | NPru => ACTION_PRU end).
  generalize NLll. induction ss as [|s ss IH]; intros a; cbn [final]; [reflexivity|]. destruct s; apply IH.
Qed.
(** C81: what the library is called with is what the settings say: the algorithm, the
    parameters (last value or default) and every flag *)
Theorem call_has_settings : forall prog ss zl zd target c out fail,
  Forall proper ss -> (length (files ss) <= 1)%nat ->
  run (prog :: flat_map words ss) zl zd true target = MRun D c out fail ->
  match c with
  | CallLll _ wu wv dl et m ft pr fl =>
      set_action_of ss = NLll /\ dl = set_delta_of ss /\ et = set_eta_of ss /\ m = set_method_of ss /\ ft = set_ft_of ss /\ pr = set_prec_of ss /\
      (Z.testbit fl 0 = true <-> In SVerbose ss) /\ (Z.testbit fl 1 = true <-> In SEarly ss) /\ Z.testbit fl 2 = set_siegel_of ss /\ 0 <= fl < 8
  | CallHlll _ wu wv dl et th cc m ft pr fl nolll =>
      set_action_of ss = NHlll /\ dl = set_delta_of ss /\ et = set_eta_of ss /\ th = set_theta_of ss /\ cc = set_c_of ss /\
      m = set_method_of ss /\ ft = set_ft_of ss /\ pr = set_prec_of ss /\
      (Z.testbit fl 0 = true <-> In SVerbose ss) /\ 0 <= fl < 2 /\ (nolll = true <-> In SNoLll ss)
  | CallBkz _ wu bl st dl fl du gh lo ti ft pr =>
      In (set_action_of ss) [NBkz; NSdb; NSld] /\ bl = set_block_of ss /\ 0 < bl /\ dl = set_delta_of ss /\ ft = set_ft_of ss /\ pr = set_prec_of ss /\
      (set_strat_of ss = "" /\ st = None \/ set_strat_of ss <> "" /\ st = Some (set_strat_of ss)) /\
      (forall k, 2 <= k -> (Z.testbit fl k = true <-> raises k ss)) /\
      (Z.testbit fl 0 = true <-> In SVerbose ss) /\ (Z.testbit fl 1 = true <-> In SNoLll ss) /\
      (raises 6 ss /\ du = Some (set_dump_of ss) \/ ~ raises 6 ss /\ du = None) /\
      (raises 7 ss /\ gh = Some (set_gh_of ss) \/ ~ raises 7 ss /\ gh = None) /\
      (raises 2 ss /\ lo = Some (set_loops_of ss) \/ ~ raises 2 ss /\ lo = None) /\
      (raises 3 ss /\ ti = Some (set_time_of ss) \/ ~ raises 3 ss /\ ti = None)
  | CallHkz _ fl ft pr => set_action_of ss = NHkz /\ (Z.testbit fl 0 = true <-> In SVerbose ss) /\ 0 <= fl < 2 /\ ft = set_ft_of ss /\ pr = set_prec_of ss
  | CallSvp _ lll wu lf fl =>
      In (set_action_of ss) [NSvp; NCvp] /\ (set_action_of ss = NCvp -> target = false) /\ (lll = false <-> In SNoLll ss) /\ lf = fl /\ (Z.testbit fl 0 = true <-> In SVerbose ss) /\ 0 <= fl < 2
  | CallCvp _ lll wu lf fl =>
      set_action_of ss = NCvp /\ target = true /\ (lll = false <-> In SNoLll ss) /\ lf = fl /\ (Z.testbit fl 0 = true <-> In SVerbose ss) /\ 0 <= fl < 2
  | CallPrune _ ft pr ps pe pn pp gh =>
      set_action_of ss = NPru /\ ft = set_ft_of ss /\ pr = set_prec_of ss /\
      Some ps = final (fun s => match s with SPruStart w => Some (Some (text_int w)) | _ => None end) None ss /\
      (exists e, final (fun s => match s with SPruEnd w => Some (Some (text_int w)) | _ => None end) None ss = Some e /\ (e = 0 /\ pe = None \/ e <> 0 /\ pe = Some e)) /\
      (exists x, final (fun s => match s with SPruNodes w => Some (Some (atof w)) | _ => None end) None ss = Some x /\ pn = if dnz x then x else d_1e6) /\
      (exists x, final (fun s => match s with SPruProb w => Some (Some (atof w)) | _ => None end) None ss = Some x /\ pp = if dnz x then x else d_m1) /\
      (raises 7 ss /\ gh = set_gh_of ss \/ ~ raises 7 ss /\ gh = d_one)
  end.
Proof.
  intros prog ss zl zd target c out fail Hp Hf H. unfold main in H. rewrite (cmd_meaning prog ss Hp Hf) in H.
  set (o := meaning D atof new ss) in *.
  assert (HA : o_action D o = match set_action_of ss with NLll => ACTION_LLL | NHkz => ACTION_HKZ
       | NBkz | NSdb | NSld => ACTION_BKZ | NSvp => ACTION_SVP | NCvp => ACTION_CVP | NHlll => ACTION_HLLL | NPru => ACTION_PRU end) by apply action_meaning.
  assert (HV : o_verbose D o = true <-> In SVerbose ss).
  { unfold o, meaning. cbn [o_verbose]. rewrite (final_flag _ (fun s => s = SVerbose)); [|intros []; auto; right; split; auto; discriminate].
    split; [intros [E|[s [E ->]]]; [discriminate E|auto]|intros E; right; eauto]. }
  assert (HE : o_early D o = true <-> In SEarly ss).
  { unfold o, meaning. cbn [o_early]. rewrite (final_flag _ (fun s => s = SEarly)); [|intros []; auto; right; split; auto; discriminate].
    split; [intros [E|[s [E ->]]]; [discriminate E|auto]|intros E; right; eauto]. }
  assert (HN : o_nolll D o = true <-> In SNoLll ss).
  { unfold o, meaning. cbn [o_nolll]. rewrite (final_flag _ (fun s => s = SNoLll)); [|intros []; auto; right; split; auto; discriminate].
    split; [intros [E|[s [E ->]]]; [discriminate E|auto]|intros E; right; eauto]. }
  assert (HB : forall k, Z.testbit (o_flags D o) k = true <-> raises k ss) by (intros k; apply (raises_bit ss k)).
  assert (HF : forall k, 0 <= k -> forall T (x : T), raises k ss /\ (if has_flag (o_flags D o) (2 ^ k) then Some x else None) = Some x \/
                                  ~ raises k ss /\ (if has_flag (o_flags D o) (2 ^ k) then Some x else None) = None).
  { intros k Hk T x. rewrite has_flag_bit by auto. rewrite <- HB. destruct (Z.testbit (o_flags D o) k); [left|right]; split; auto. }
  assert (NL : negb (o_nolll D o) = false <-> In SNoLll ss) by (rewrite negb_false_iff; exact HN).
  assert (V1 : Z.testbit (when (o_verbose D o) 1) 0 = true <-> In SVerbose ss) by (rewrite <- HV; destruct (o_verbose D o); cbn; split; auto).
  assert (V2 : 0 <= when (o_verbose D o) 1 < 2) by (destruct (o_verbose D o); cbn; lia).
  assert (R : exists mpz, run_action D dnz d_one d_1e6 d_m1 true target mpz o = MRun D c out fail).
  { destruct (o_int D o); [eauto|destruct zl; [eauto|discriminate H]|destruct zd; [eauto|discriminate H]]. }
  clear H. destruct R as [mpz H]. unfold run_action in H. cbn [negb] in H. rewrite HA in H. clear HA.
  assert (SV : forall tg, do_svpcvp D mpz tg o = MRun D c out fail ->
    c = (if tg then CallCvp D else CallSvp D) (negb (o_nolll D o)) (negb (o_nolll D o) && has_chr "c" (format_of D o "s"))%bool (when (o_verbose D o) 1) (when (o_verbose D o) 1)).
  { intros tg X. unfold do_svpcvp in X. destruct (negb mpz); [discriminate X|]. apply MRun_inj in X. rewrite <- X. destruct tg; reflexivity. }
  assert (BK : do_bkz D mpz o = MRun D c out fail -> In (set_action_of ss) [NBkz; NSdb; NSld] -> 
     match c with CallBkz _ wu bl st dl fl du gh lo ti ft pr =>
      In (set_action_of ss) [NBkz; NSdb; NSld] /\ bl = set_block_of ss /\ 0 < bl /\ dl = set_delta_of ss /\ ft = set_ft_of ss /\ pr = set_prec_of ss /\
      (set_strat_of ss = "" /\ st = None \/ set_strat_of ss <> "" /\ st = Some (set_strat_of ss)) /\
      (forall k, 2 <= k -> (Z.testbit fl k = true <-> raises k ss)) /\
      (Z.testbit fl 0 = true <-> In SVerbose ss) /\ (Z.testbit fl 1 = true <-> In SNoLll ss) /\
      (raises 6 ss /\ du = Some (set_dump_of ss) \/ ~ raises 6 ss /\ du = None) /\
      (raises 7 ss /\ gh = Some (set_gh_of ss) \/ ~ raises 7 ss /\ gh = None) /\
      (raises 2 ss /\ lo = Some (set_loops_of ss) \/ ~ raises 2 ss /\ lo = None) /\
      (raises 3 ss /\ ti = Some (set_time_of ss) \/ ~ raises 3 ss /\ ti = None) | _ => False end).
  { intros X HI. unfold do_bkz in X. destruct (negb mpz); [discriminate X|]. destruct (Z.ltb_spec 0 (o_block D o)) as [Hb|Hb]; cbn [negb] in X; [|discriminate X].
    apply MRun_inj in X. rewrite <- X. split; auto. split; [reflexivity|]. split; [exact Hb|]. split; [reflexivity|]. split; [reflexivity|]. split; [reflexivity|].
    split. { change (o_strat D o) with (set_strat_of ss). destruct (String.eqb_spec (set_strat_of ss) "") as [Es|Es]; [left|right]; split; auto. }
    assert (LOW : forall k, 2 <= k -> Z.testbit (when (o_verbose D o) BKZ_VERBOSE) k = false /\ Z.testbit (when (o_nolll D o) BKZ_NO_LLL) k = false).
    { intros k Hk. split; unfold when.
      - destruct (o_verbose D o); [|apply Z.testbit_0_l]. change BKZ_VERBOSE with (2 ^ 0). apply Z.pow2_bits_false. lia.
      - destruct (o_nolll D o); [|apply Z.testbit_0_l]. change BKZ_NO_LLL with (2 ^ 1). apply Z.pow2_bits_false. lia. }
    assert (F0 : Z.testbit (o_flags D o) 0 = false /\ Z.testbit (o_flags D o) 1 = false).
    { split; apply not_true_is_false; rewrite HB; intros [s [_ E]]; destruct s; try discriminate E; destruct a; discriminate E. }
    split. { intros k Hk. rewrite !Z.lor_spec. destruct (LOW k Hk) as [-> ->]. rewrite !orb_false_r. apply HB. }
    split. { rewrite !Z.lor_spec. destruct F0 as [-> _]. rewrite <- HV. destruct (o_verbose D o), (o_nolll D o); cbn; split; auto. }
    split. { rewrite !Z.lor_spec. destruct F0 as [_ ->]. rewrite <- HN. destruct (o_verbose D o), (o_nolll D o); cbn; split; auto. }
    split; [exact (HF 6 ltac:(lia) _ (set_dump_of ss))|]. split; [exact (HF 7 ltac:(lia) _ (set_gh_of ss))|].
    split; [exact (HF 2 ltac:(lia) _ (set_loops_of ss))|exact (HF 3 ltac:(lia) _ (set_time_of ss))]. }
  destruct (set_action_of ss) eqn:EA.
  - apply MRun_inj in H. subst c. split; auto. repeat (split; [reflexivity|]).
    assert (X : forall a b s, Z.testbit (Z.lor (Z.lor (when a 1) (when b 2)) (when s 4)) 0 = a /\ Z.testbit (Z.lor (Z.lor (when a 1) (when b 2)) (when s 4)) 1 = b /\
       Z.testbit (Z.lor (Z.lor (when a 1) (when b 2)) (when s 4)) 2 = s /\ 0 <= Z.lor (Z.lor (when a 1) (when b 2)) (when s 4) < 8) by (intros [] [] []; cbn; repeat split; lia).
    destruct (X (o_verbose D o) (o_early D o) (o_siegel D o)) as [X0 [X1 [X2 X3]]].
    unfold LLL_VERBOSE, LLL_EARLY_RED, LLL_SIEGEL. rewrite X0, X1, X2. split; auto.
  - unfold do_hkz in H. destruct (negb mpz); [discriminate H|]. apply MRun_inj in H. subst c. split; auto.
  - specialize (BK H). destruct c; try (exfalso; apply BK; cbn; auto; fail). apply BK. cbn. auto.
  - rewrite (SV false H). cbn beta iota. split; [cbn; auto|]. split; [discriminate|]. split; auto.
  - rewrite (SV target H). destruct target; cbn beta iota; [split; auto; split; auto; split; auto|]. split; [cbn; auto|]. split; auto.
  - specialize (BK H). destruct c; try (exfalso; apply BK; cbn; auto; fail). apply BK. cbn. auto.
  - specialize (BK H). destruct c; try (exfalso; apply BK; cbn; auto; fail). apply BK. cbn. auto.
  - apply MRun_inj in H. subst c. split; auto. repeat (split; [reflexivity|]). auto.
  - unfold do_prune in H. destruct (negb mpz); [discriminate H|]. destruct (o_pstart D o) as [z|] eqn:E1; [|discriminate H]. destruct (o_pend D o) as [z0|] eqn:E2; [|discriminate H].
    destruct (o_pnodes D o) as [d|] eqn:E3; [|discriminate H]. destruct (o_pprob D o) as [d0|] eqn:E4; [|discriminate H].
    apply MRun_inj in H. subst c. split; auto. split; [reflexivity|]. split; [reflexivity|].
    split; [symmetry; exact E1|]. split; [exists z0; split; [exact E2|]; destruct (Z.eqb_spec z0 0); auto|].
    split; [exists d; split; [exact E3|reflexivity]|]. split; [exists d0; split; [exact E4|reflexivity]|]. change BKZ_GH_BND with (2 ^ 7). rewrite has_flag_bit by lia. rewrite <- HB.
    destruct (Z.testbit (o_flags D o) 7); [left|right]; auto.
Qed.

(** the item of svp and cvp for a character of the format (main.cpp:300-317) *)
Definition svp_item (c : ascii) : list item :=
  if Ascii.eqb c "c" then [ICoord] else if Ascii.eqb c "s" then [ISol] else if Ascii.eqb c "t" then [IStatus]
  else if Ascii.eqb c " " then [IBlank] else [].
Lemma print_svp_items : forall f, print_svp f = flat_map svp_item (list_ascii_of_string f).
Proof.
  induction f as [|c f IH]; [reflexivity|]. cbn [print_svp list_ascii_of_string flat_map]. unfold svp_item at 1.
  destruct (Ascii.eqb c "c"), (Ascii.eqb c "s"), (Ascii.eqb c "t"), (Ascii.eqb c " "); cbn; now rewrite IH.
Qed.
Definition set_format_of ss := final (fun s => match s with SFormat w => Some (Some w) | _ => None end) None ss.
(** C81: what is printed after the call follows the format, "b" or "s" if none is given; svp and
    cvp print nothing after a failure *)
Theorem output_has_format : forall prog ss zl zd target c out fail,
  Forall proper ss -> (length (files ss) <= 1)%nat ->
  run (prog :: flat_map words ss) zl zd true target = MRun D c out fail ->
  let f := match set_format_of ss with Some w => w | None => match set_action_of ss with NSvp | NCvp => "s" | _ => "b" end end in
  (forall l, toks_ok l -> f = format_text l ->
    match set_action_of ss with
    | NLll => out = flat_map (tok_item true true true true) l /\ fail = out
    | NHlll => out = flat_map (tok_item true true false true) l /\ fail = out
    | NBkz | NSdb | NSld => out = flat_map (tok_item true false true true) l /\ fail = out
    | NHkz => out = flat_map (tok_item false false false false) l /\ fail = out
    | NSvp | NCvp => True
    | NPru => out = [] /\ fail = []
    end) /\
  (In (set_action_of ss) [NSvp; NCvp] -> out = flat_map svp_item (list_ascii_of_string f) /\ fail = []).
Proof.
  intros prog ss zl zd target c out fail Hp Hf H f. unfold main in H. rewrite (cmd_meaning prog ss Hp Hf) in H.
  set (o := meaning D atof new ss) in *.
  assert (HA : o_action D o = match set_action_of ss with NLll => ACTION_LLL | NHkz => ACTION_HKZ
       | NBkz | NSdb | NSld => ACTION_BKZ | NSvp => ACTION_SVP | NCvp => ACTION_CVP | NHlll => ACTION_HLLL | NPru => ACTION_PRU end) by apply action_meaning.
  assert (HO : o_format D o = set_format_of ss) by reflexivity. clearbody o.
  assert (R : exists mpz, run_action D dnz d_one d_1e6 d_m1 true target mpz o = MRun D c out fail).
  { destruct (o_int D o); [eauto|destruct zl; [eauto|discriminate H]|destruct zd; [eauto|discriminate H]]. }
  clear H. destruct R as [mpz H]. unfold run_action in H. cbn [negb] in H. rewrite HA in H. clear HA.
  assert (SV : forall tg, do_svpcvp D mpz tg o = MRun D c out fail -> out = print_svp (format_of D o "s") /\ fail = []).
  { intros tg X. unfold do_svpcvp in X. destruct (negb mpz); [discriminate X|]. injection X as _ <- <-. auto. }
  assert (BK : do_bkz D mpz o = MRun D c out fail -> out = print_items true false true true (format_of D o "b") /\ fail = out).
  { intros X. unfold do_bkz in X. destruct (negb mpz); [discriminate X|]. destruct (negb (0 <? o_block D o)); [discriminate X|]. injection X as _ <- <-. auto. }
  assert (FB : format_of D o "b" = match set_format_of ss with Some w => w | None => "b" end) by (unfold format_of; now rewrite HO).
  assert (FS : format_of D o "s" = match set_format_of ss with Some w => w | None => "s" end) by (unfold format_of; now rewrite HO).
  subst f. destruct (set_action_of ss) eqn:EA; (split; [intros l Hl E|intros Hi; try solve [exfalso; cbn in Hi; destruct Hi as [Hi|[Hi|[]]]; discriminate Hi]]).
  - injection H as _ <- <-. rewrite FB, E, format_items by exact Hl. auto.
  - unfold do_hkz in H. destruct (negb mpz); [discriminate H|]. injection H as _ <- <-. rewrite FB, E, format_items by exact Hl. auto.
  - destruct (BK H) as [-> ->]. rewrite FB, E, format_items by exact Hl. auto.
  - exact I.
  - destruct (SV _ H) as [E1 E2]. rewrite E1, E2, FS, print_svp_items. auto.
  - exact I.
  - destruct (SV _ H) as [E1 E2]. rewrite E1, E2, FS, print_svp_items. auto.
  - destruct (BK H) as [-> ->]. rewrite FB, E, format_items by exact Hl. auto.
  - destruct (BK H) as [-> ->]. rewrite FB, E, format_items by exact Hl. auto.
  - injection H as _ <- <-. rewrite FB, E, format_items by exact Hl. auto.
  - unfold do_prune in H. destruct (negb mpz); [discriminate H|]. destruct (o_pstart D o), (o_pend D o), (o_pnodes D o), (o_pprob D o); try discriminate H.
    injection H as _ <- <-. auto.
Qed.

Definition set_int_of ss := final (fun s => match s with SIntType z => Some z | _ => None end) NMpz ss.
(** C81: when the library is called: the integer type is compiled in and, except for lll and
    hlll, is mpz, BKZ has a block size; otherwise the exit status is 1 (pruner: see
    pruner_defined) *)
Theorem when_it_runs : forall prog ss zl zd target,
  Forall proper ss -> (length (files ss) <= 1)%nat -> set_action_of ss <> NPru ->
  let there := match set_int_of ss with NMpz => true | NLong | NInt => zl | NDouble => zd end in
  let fits := match set_action_of ss with NLll | NHlll => True | NBkz | NSdb | NSld => set_int_of ss = NMpz /\ 0 < set_block_of ss | _ => set_int_of ss = NMpz end in
  (there = true /\ fits -> exists c out fail, run (prog :: flat_map words ss) zl zd true target = MRun D c out fail) /\
  (~ (there = true /\ fits) -> run (prog :: flat_map words ss) zl zd true target = MExit D 1) /\
  run (prog :: flat_map words ss) zl zd false target = MExit D 1.
Proof.
  intros prog ss zl zd target Hp Hf HP. unfold main. rewrite (cmd_meaning prog ss Hp Hf).
  set (o := meaning D atof new ss).
  assert (HA : o_action D o = match set_action_of ss with NLll => ACTION_LLL | NHkz => ACTION_HKZ
       | NBkz | NSdb | NSld => ACTION_BKZ | NSvp => ACTION_SVP | NCvp => ACTION_CVP | NHlll => ACTION_HLLL | NPru => ACTION_PRU end) by apply action_meaning.
  assert (HI : o_int D o = match set_int_of ss with NMpz => ZT_MPZ | NLong | NInt => ZT_LONG | NDouble => ZT_DOUBLE end).
  { unfold o, meaning, set_int_of. cbn [o_int]. change (o_int D new) with (match NMpz with NMpz => ZT_MPZ | NLong | NInt => ZT_LONG | NDouble => ZT_DOUBLE end).
    generalize NMpz. clear. induction ss as [|s ss IH]; intros a; cbn [final]; [reflexivity|]. destruct s; apply IH. }
  assert (HB : o_block D o = set_block_of ss) by reflexivity. clearbody o.
  rewrite HI. unfold run_action. cbn [negb]. rewrite HA. cbv zeta.
  unfold do_lll, do_hlll, do_bkz, do_hkz, do_svpcvp. rewrite HB.
  destruct (set_int_of ss); destruct zl, zd; cbn [negb];
    destruct (set_action_of ss); try contradiction; try (destruct (Z.ltb_spec 0 (set_block_of ss)); cbn [negb]);
    (split; [intros [X1 X2]; try discriminate X1; try discriminate X2; try solve [destruct X2; first [discriminate|lia]]; eauto
            |split; [intros X; try reflexivity; exfalso; apply X; auto|reflexivity]]).
Qed.

End C81.

(** C81: "-r (ignored)" is false: with numbers as texts, c becomes "10". *)
Theorem option_r_refuted : exists w o, read_options string (fun w => w) "0" "0.99" "0.51" "0.001" "0.1" "1.1" ["fplll"; "-r"; w] = POk string o /\
  o_c string o <> o_c string (opt_new string "0" "0.99" "0.51" "0.001" "0.1" "1.1").
Proof. exists "10". eexists. split; [reflexivity|]. discriminate. Qed.

(** ** Cases *)
(** numbers as texts *)
Example cmd_case :
  read_options string (fun w => w) "0" "0.99" "0.51" "0.001" "0.1" "1.1"
    ["fplll"; "-a"; "bkz"; "-b"; "20"; "-bkzmaxloops"; " +7x"; "in.txt"; "-d"; "0.98"; "-of"; "bkut"; "-z"; "int"; "-b"; "-3"]
  = POk string (mkopt string ACTION_BKZ LM_WRAPPER ZT_LONG FT_DEFAULT "0.98" "0.51" 0 false false false (-3) 4 7
      None None None None "0" "" "1.1" "" false (Some "in.txt") (Some "bkut") "0.001" "0.1").
Proof. reflexivity. Qed.
Example cmd_case_settings : Forall proper [SAction NBkz; SBlock "20"; SLoops " +7x"; SFile "in.txt"; SDelta false "0.98"; SBlock "-3"]
  /\ (length (files [SAction NBkz; SBlock "20"; SLoops " +7x"; SFile "in.txt"; SDelta false "0.98"; SBlock "-3"]) <= 1)%nat.
Proof.
  split; [|simpl; lia]. repeat constructor; try (intros t E; discriminate E); try (vm_compute; discriminate).
Qed.
Example cmd_case_missing :
  read_options string (fun w => w) "0" "0.99" "0.51" "0.001" "0.1" "1.1" ["fplll"; "-v"; "-b"] = PExit string 1.
Proof. reflexivity. Qed.
Example cmd_case_two_files :
  read_options string (fun w => w) "0" "0.99" "0.51" "0.001" "0.1" "1.1" ["fplll"; "x"; "y"] = PExit string 1.
Proof. reflexivity. Qed.
Example cmd_case_large :
  read_options string (fun w => w) "0" "0.99" "0.51" "0.001" "0.1" "1.1" ["fplll"; "-p"; "99999999999"] = PUndef string
  /\ ~ int_text "99999999999".
Proof. split; [reflexivity|]. intros [_ H]. vm_compute in H. discriminate H. Qed.
Example format_case :
  toks_ok [TMat FB true; TMat FU false; TBlank; TStat; TOther "x"; TMat FV true] /\
  format_text [TMat FB true; TMat FU false; TBlank; TStat; TOther "x"; TMat FV true] = "bku txvk" /\
  print_items true true true true "bku txvk" = [IBk; IU; IBlank; IStatus; IVk].
Proof. split; [repeat split; discriminate|]. split; reflexivity. Qed.
(** instance of call_has_settings, output_has_format and when_it_runs: the settings meet the
    hypotheses, and the call is the one expected *)
Example call_case :
  let ss := [SAction NBkz; SBlock "20"; SLoops "7"; SDelta true "0.98"; SVerbose; SFormat "bk tu"; SAbort; SLoops "9"; SFt FDd; SFile "in.txt"] in
  Forall proper ss /\ (length (files ss) <= 1)%nat /\
  main string (fun w => w) (fun w => negb (String.eqb w "0")) "0" "0.99" "0.51" "0.001" "0.1" "1.1" "1" "1e6" "-1" ("fplll" :: flat_map words ss) true true true false
    = MRun string (CallBkz string true 20 None "0.98" 37 None None (Some 9) None FT_DD 0) [IBk; IBlank; IStatus; IU] [IBk; IBlank; IStatus; IU].
Proof. split; [repeat constructor; cbn; try lia; try (unfold int_text; cbn; lia); intros t; discriminate|]. split; [cbn; lia|reflexivity]. Qed.
Example text_int_case : text_int " -0042x7" = -42 /\ text_int "+13" = 13 /\ text_int "x9" = 0.
Proof.
  split; [|split].
  - apply (text_int_right " " "-" [0; 0; 4; 2]%nat "x7"); [repeat constructor; cbn; tauto|cbn; tauto|discriminate|repeat constructor|].
    intros d t Hd E. do 10 (destruct d as [|d]; [discriminate E|]). lia.
  - apply (text_int_right "" "+" [1; 3]%nat ""); [constructor|cbn; tauto|discriminate|repeat constructor|]. intros d t _ E. discriminate E.
  - apply (text_int_none "" "x9"); [constructor| |].
    + intros d t Hd E. do 10 (destruct d as [|d]; [discriminate E|]). lia.
    + intros c t E. injection E as <- _. cbn. intuition discriminate.
Qed.
Example printed_case :
  main string (fun w => w) (fun _ => true) "0" "0.99" "0.51" "0.001" "0.1" "1.1" "1" "1e6" "-1" ["fplll"; "-of"; "buv"] true true true false
  = MRun string (CallLll string true true "0.99" "0.51" LM_WRAPPER FT_DEFAULT 0 0) [IB; IU; IV] [IB; IU; IV].
Proof. reflexivity. Qed.
Example pruner_case :
  main string (fun w => w) (fun _ => true) "0" "0.99" "0.51" "0.001" "0.1" "1.1" "1" "1e6" "-1" ["fplll"; "-a"; "pru"] true true true false
    = MUndef string /\
  main string (fun w => w) (fun _ => true) "0" "0.99" "0.51" "0.001" "0.1" "1.1" "1" "1e6" "-1"
    (["fplll"] ++ flat_map words [SAction NPru; SPruStart "0"; SPruEnd "40"; SPruNodes "1e5"; SPruProb "0.5"])%list true true true false
    = MRun string (CallPrune string FT_DEFAULT 0 0 (Some 40) "1e5" "0.5" "1") [] [].
Proof. split; reflexivity. Qed.

Print Assumptions cmd_meaning.
Print Assumptions cmd_only.
Print Assumptions cmd_safe.
Print Assumptions format_items.
Print Assumptions format_read.
Print Assumptions printed_is_computed.
Print Assumptions pruner_defined.
Print Assumptions nolll_bkz.
Print Assumptions call_has_settings.
Print Assumptions output_has_format.
Print Assumptions when_it_runs.
Print Assumptions text_int_right.
Print Assumptions text_int_none.
