(** The parser of main.cpp reads exactly the command lines of CmdSpec. *)
From Coq Require Import Ascii String List ZArith Bool Arith Lia.
From Verif Require Import CmdModel CmdSpec.
Import ListNotations.
Local Open Scope string_scope.
Local Open Scope Z_scope.

Lemma skipn_cons : forall A n (l : list A) x r, skipn n l = x :: r -> nth_error l n = Some x /\ skipn (S n) l = r.
Proof.
  induction n as [|n IH]; intros l x r H; destruct l as [|y l]; try discriminate H.
  - simpl in H. injection H as -> ->. split; reflexivity.
  - simpl in H. destruct (IH l x r H) as [Ha Hb]. split; [exact Ha|exact Hb].
Qed.
Lemma skipn_nth : forall A n (l : list A) x, nth_error l n = Some x -> skipn n l = x :: skipn (S n) l.
Proof.
  induction n as [|n IH]; intros l x H; destruct l as [|y l]; try discriminate H.
  - simpl in H. injection H as ->. reflexivity.
  - simpl in H. change (skipn (S n) (y :: l)) with (skipn n l). rewrite (IH l x H). reflexivity.
Qed.
Lemma nth_some_lt : forall A n (l : list A) x, nth_error l n = Some x -> (n <? length l)%nat = true.
Proof. intros A n l x H. apply Nat.ltb_lt, nth_error_Some. rewrite H. discriminate. Qed.

Lemma atoi_int_text : forall w, int_text w -> atoi w = Some (text_int w).
Proof.
  intros w [Ha Hb]. unfold atoi. apply Z.leb_le in Ha. apply Z.ltb_lt in Hb. rewrite Ha, Hb. reflexivity.
Qed.
Lemma atoi_some : forall w z, atoi w = Some z -> int_text w /\ z = text_int w.
Proof.
  intros w z. unfold atoi, int_text. destruct ((- 2 ^ 31 <=? text_int w) && (text_int w <? 2 ^ 31))%bool eqn:E; intro H.
  - injection H as <-. apply andb_prop in E. destruct E as [E1 E2]. apply Z.leb_le in E1. apply Z.ltb_lt in E2. auto.
  - discriminate H.
Qed.
Lemma atoi_none : forall w, atoi w = None -> ~ int_text w.
Proof. intros w H Hi. rewrite (atoi_int_text w Hi) in H. discriminate H. Qed.

Section Cmd.
Variable D : Type.
Variable atof : string -> D.
Variable argv : list string.
Notation ro_step := (ro_step D atof argv).
Notation ro_loop := (ro_loop D atof argv).
Notation meaning := (meaning D atof).

Definition may_file (o : options D) (s : setting) : Prop :=
  match s with SFile _ => o_input D o = None | _ => True end.

Lemma meaning_cons : forall o s ss, meaning o (s :: ss) = meaning (meaning o [s]) ss.
Proof. reflexivity. Qed.

Lemma dash_neq : forall s t, (forall r, s <> String "-" r) -> String.eqb s (String "-" t) = false.
Proof.
  intros s t H. apply String.eqb_neq. apply H.
Qed.

Lemma is_dash_false : forall s, (forall r, s <> String "-" r) -> is_dash s = false.
Proof.
  intros [|c s] H; [reflexivity|]. simpl. apply Ascii.eqb_neq. intros ->. exact (H s eq_refl).
Qed.
Lemma is_dash_false_inv : forall s, is_dash s = false -> forall r, s <> String "-" r.
Proof. intros s H r ->. simpl in H. discriminate H. Qed.

Lemma or_flags_0 : forall z, Z.lor z 0 = z.
Proof. intro z. apply Z.lor_0_r. Qed.

(** a setting that is written at position ac is read as what it means *)
Lemma step_complete : forall ac o s rest, skipn ac argv = (words s ++ rest)%list -> proper s -> may_file o s ->
  exists ac', ro_step ac o = SCont D ac' (meaning o [s]) /\ skipn (S ac') argv = rest /\ (ac <= ac')%nat.
Proof.
  intros ac o s rest H Hp Hf.
  destruct s;
    match goal with
    | H : skipn ac argv = (words (SFile ?w) ++ rest)%list |- _ =>
        simpl in H; apply skipn_cons in H; destruct H as [H1 H2];
        exists ac; unfold CmdModel.ro_step; rewrite H1; simpl in Hp, Hf;
        rewrite ?(dash_neq w _ Hp), (is_dash_false w Hp), Hf; cbn [orb];
        split; [destruct o; unfold CmdSpec.meaning, set_input; simpl in *; rewrite ?or_flags_0; reflexivity|split; [exact H2|lia]]
    | H : skipn ac argv = (words ?s ++ rest)%list |- _ =>
        simpl in H; apply skipn_cons in H; destruct H as [H1 H2];
        first
          [ (apply skipn_cons in H2; destruct H2 as [H2 H3];
             exists (S ac); unfold CmdModel.ro_step; rewrite H1;
             try (match goal with b : bool |- _ => destruct b end);
             cbn [String.eqb Ascii.eqb Bool.eqb orb];
             unfold int_value, dbl_value, value; rewrite (nth_some_lt _ _ _ _ H2), H2;
             try (simpl in Hp; rewrite (atoi_int_text _ Hp));
             try (match goal with a : act_name |- _ => destruct a | a : ft_name |- _ => destruct a | a : met_name |- _ => destruct a
                   | a : int_name |- _ => destruct a end);
             (split; [destruct o; unfold CmdSpec.meaning, or_flags; simpl in *; rewrite ?or_flags_0; reflexivity|split; [exact H3|lia]]))
          | (exists ac; unfold CmdModel.ro_step; rewrite H1; cbn [String.eqb Ascii.eqb Bool.eqb orb];
             (split; [destruct o; unfold CmdSpec.meaning, or_flags; simpl in *; rewrite ?or_flags_0; reflexivity|split; [exact H2|lia]])) ]
    end.
Qed.

Lemma value_cont : forall ac k a o, value D argv ac k = SCont D a o ->
  exists w, nth_error argv (S ac) = Some w /\ k (S ac) w = SCont D a o.
Proof.
  intros ac k a o H. unfold value in H. destruct (S ac <? length argv)%nat eqn:E; [|discriminate H].
  destruct (nth_error argv (S ac)) as [w|] eqn:En; [exists w; auto|discriminate H].
Qed.
Lemma value_undef : forall ac k, value D argv ac k = SUndef D ->
  exists w, nth_error argv (S ac) = Some w /\ k (S ac) w = SUndef D.
Proof.
  intros ac k H. unfold value in H. destruct (S ac <? length argv)%nat eqn:E; [|discriminate H].
  destruct (nth_error argv (S ac)) as [w|] eqn:En; [exists w; auto|].
  apply Nat.ltb_lt in E. apply nth_error_None in En. lia.
Qed.
Lemma int_value_cont : forall ac f a o, int_value D argv ac f = SCont D a o ->
  exists w, nth_error argv (S ac) = Some w /\ int_text w /\ a = S ac /\ o = f (text_int w).
Proof.
  intros ac f a o H. apply value_cont in H. destruct H as (w & Hw & H). exists w.
  destruct (atoi w) as [z|] eqn:E; [|discriminate H]. injection H as <- <-.
  apply atoi_some in E. destruct E as [E1 ->]. auto.
Qed.
Lemma dbl_value_cont : forall ac f a o, dbl_value D atof argv ac f = SCont D a o ->
  exists w, nth_error argv (S ac) = Some w /\ a = S ac /\ o = f (atof w).
Proof.
  intros ac f a o H. apply value_cont in H. destruct H as (w & Hw & H). injection H as <- <-. exists w. auto.
Qed.

Lemma eqb_l : forall t w, String.eqb t w = true -> w = t.
Proof. intros t w H. apply String.eqb_eq in H. auto. Qed.

Ltac act a := exists a; split; [reflexivity|unfold CmdSpec.meaning, or_flags; match goal with o : options D |- _ => destruct o end; simpl; rewrite ?or_flags_0; reflexivity].

Lemma read_action_inv : forall o w o', read_action D o w = Some o' ->
  exists a, w = act_word a /\ o' = meaning o [SAction a].
Proof.
  intros o w o' H. unfold read_action in H.
  repeat match type of H with
  | (if String.eqb w ?t then _ else _) = _ =>
      let E := fresh "E" in destruct (String.eqb w t) eqn:E;
      [apply String.eqb_eq in E; subst w; injection H as <-;
       first [act NLll|act NHkz|act NBkz|act NSvp|act NCvp|act NSdb|act NSld|act NHlll|act NPru]|clear E]
  end.
  discriminate H.
Qed.
Lemma read_ft_inv : forall o w x, read_ft w = Some x ->
  exists a, w = ft_word a /\ set_ft D o x = meaning o [SFt a].
Proof.
  intros o w o' H. unfold read_ft in H.
  repeat match type of H with
  | (if String.eqb ?t w then _ else _) = _ =>
      let E := fresh "E" in destruct (String.eqb t w) eqn:E;
      [apply eqb_l in E; subst w; injection H as <-;
       first [act FMpfr|act FDpe|act FDd|act FQd|act FDouble|act FLongdouble]|clear E]
  end.
  discriminate H.
Qed.
Lemma read_method_inv : forall o w x, read_method w = Some x ->
  exists a, w = met_word a /\ set_method D o x = meaning o [SMethod a].
Proof.
  intros o w o' H. unfold read_method in H.
  repeat match type of H with
  | (if String.eqb ?t w then _ else _) = _ =>
      let E := fresh "E" in destruct (String.eqb t w) eqn:E;
      [apply eqb_l in E; subst w; injection H as <-;
       first [act MWrapper|act MProved|act MHeuristic|act MFast]|clear E]
  end.
  discriminate H.
Qed.
Lemma read_int_inv : forall o w x, read_int w = Some x ->
  exists a, w = int_word a /\ set_int D o x = meaning o [SIntType a].
Proof.
  intros o w o' H. unfold read_int in H.
  destruct (String.eqb "mpz" w) eqn:E1; [apply eqb_l in E1; subst w; injection H as <-; act NMpz|].
  destruct (String.eqb "long" w) eqn:E2; [apply eqb_l in E2; subst w; injection H as <-; act NLong|].
  destruct (String.eqb "int" w) eqn:E3; [apply eqb_l in E3; subst w; injection H as <-; act NInt|].
  cbn [orb] in H.
  destruct (String.eqb "double" w) eqn:E4; [apply eqb_l in E4; subst w; injection H as <-; act NDouble|].
  discriminate H.
Qed.

Ltac fin1 H En c :=
  exists c; split; [rewrite (skipn_nth _ _ _ _ En); reflexivity|split; [simpl; auto|split; [|split; [simpl; auto|lia]]]];
  unfold CmdSpec.meaning, or_flags; match goal with o : options D |- _ => destruct o end; simpl; rewrite ?or_flags_0; reflexivity.
Ltac fin2 En Ew c :=
  exists c; split; [rewrite (skipn_nth _ _ _ _ En), (skipn_nth _ _ _ _ Ew); reflexivity|split; [simpl; auto|split; [|split; [simpl; auto|lia]]]];
  unfold CmdSpec.meaning, or_flags; match goal with o : options D |- _ => destruct o end; simpl; rewrite ?or_flags_0; reflexivity.

(** what one step of the parser accepts is a setting *)
Lemma step_sound : forall ac o ac' o', ro_step ac o = SCont D ac' o' ->
  exists s, skipn ac argv = (words s ++ skipn (S ac') argv)%list /\ proper s /\ o' = meaning o [s] /\ may_file o s /\ (ac <= ac')%nat.
Proof.
  intros ac o ac' o' H. unfold CmdModel.ro_step in H.
  destruct (nth_error argv ac) as [s|] eqn:En; [|discriminate H]. cbv zeta in H.
  destruct (String.eqb s "-a") eqn:E; [apply String.eqb_eq in E; subst s|clear E].
  { apply value_cont in H. destruct H as (w & Ew & H). destruct (read_action D o w) as [o1|] eqn:Ea; [|discriminate H].
    injection H as <- <-. destruct (read_action_inv _ _ _ Ea) as (a & -> & ->). exists (SAction a).
    split; [rewrite (skipn_nth _ _ _ _ En), (skipn_nth _ _ _ _ Ew); reflexivity|]. simpl. auto. }
  destruct (String.eqb s "-b") eqn:E; [apply String.eqb_eq in E; subst s|clear E].
  { apply int_value_cont in H. destruct H as (w & Ew & Hi & -> & ->). fin2 En Ew (SBlock w). }
  destruct (String.eqb s "-prustart") eqn:E; [apply String.eqb_eq in E; subst s|clear E].
  { apply int_value_cont in H. destruct H as (w & Ew & Hi & -> & ->). fin2 En Ew (SPruStart w). }
  destruct (String.eqb s "-pruend") eqn:E; [apply String.eqb_eq in E; subst s|clear E].
  { apply int_value_cont in H. destruct H as (w & Ew & Hi & -> & ->). fin2 En Ew (SPruEnd w). }
  destruct (String.eqb s "-pruprenodes") eqn:E; [apply String.eqb_eq in E; subst s|clear E].
  { apply dbl_value_cont in H. destruct H as (w & Ew & -> & ->). fin2 En Ew (SPruNodes w). }
  destruct (String.eqb s "-pruminprob") eqn:E; [apply String.eqb_eq in E; subst s|clear E].
  { apply dbl_value_cont in H. destruct H as (w & Ew & -> & ->). fin2 En Ew (SPruProb w). }
  destruct (String.eqb s "-bkzboundedlll") eqn:E; [apply String.eqb_eq in E; subst s|clear E].
  { injection H as <- <-. fin1 H En SBounded. }
  destruct (String.eqb s "-bkzmaxloops") eqn:E; [apply String.eqb_eq in E; subst s|clear E].
  { apply int_value_cont in H. destruct H as (w & Ew & Hi & -> & ->). fin2 En Ew (SLoops w). }
  destruct (String.eqb s "-bkzmaxtime") eqn:E; [apply String.eqb_eq in E; subst s|clear E].
  { apply dbl_value_cont in H. destruct H as (w & Ew & -> & ->). fin2 En Ew (STime w). }
  destruct (String.eqb s "-bkzautoabort") eqn:E; [apply String.eqb_eq in E; subst s|clear E].
  { injection H as <- <-. fin1 H En SAbort. }
  destruct (String.eqb s "-bkzdumpgso") eqn:E; [apply String.eqb_eq in E; subst s|clear E].
  { apply value_cont in H. destruct H as (w & Ew & H). injection H as <- <-. fin2 En Ew (SDump w). }
  destruct (String.eqb s "-c") eqn:E; [apply String.eqb_eq in E; subst s|clear E].
  { apply dbl_value_cont in H. destruct H as (w & Ew & -> & ->). fin2 En Ew (SC false w). }
  destruct (String.eqb s "-r") eqn:E; [apply String.eqb_eq in E; subst s|clear E].
  { apply dbl_value_cont in H. destruct H as (w & Ew & -> & ->). fin2 En Ew (SC true w). }
  cbn [orb] in H.
  destruct (String.eqb s "-bkzghbound") eqn:E; [apply String.eqb_eq in E; subst s|clear E].
  { apply dbl_value_cont in H. destruct H as (w & Ew & -> & ->). fin2 En Ew (SGh w). }
  destruct (String.eqb s "-d") eqn:E; [apply String.eqb_eq in E; subst s|clear E].
  { apply dbl_value_cont in H. destruct H as (w & Ew & -> & ->). fin2 En Ew (SDelta false w). }
  destruct (String.eqb s "-delta") eqn:E; [apply String.eqb_eq in E; subst s|clear E].
  { apply dbl_value_cont in H. destruct H as (w & Ew & -> & ->). fin2 En Ew (SDelta true w). }
  cbn [orb] in H.
  destruct (String.eqb s "-e") eqn:E; [apply String.eqb_eq in E; subst s|clear E].
  { apply dbl_value_cont in H. destruct H as (w & Ew & -> & ->). fin2 En Ew (SEta false w). }
  destruct (String.eqb s "-eta") eqn:E; [apply String.eqb_eq in E; subst s|clear E].
  { apply dbl_value_cont in H. destruct H as (w & Ew & -> & ->). fin2 En Ew (SEta true w). }
  cbn [orb] in H.
  destruct (String.eqb s "-t") eqn:E; [apply String.eqb_eq in E; subst s|clear E].
  { apply dbl_value_cont in H. destruct H as (w & Ew & -> & ->). fin2 En Ew (STheta false w). }
  destruct (String.eqb s "-theta") eqn:E; [apply String.eqb_eq in E; subst s|clear E].
  { apply dbl_value_cont in H. destruct H as (w & Ew & -> & ->). fin2 En Ew (STheta true w). }
  cbn [orb] in H.
  destruct (String.eqb s "-f") eqn:E; [apply String.eqb_eq in E; subst s|clear E].
  { apply value_cont in H. destruct H as (w & Ew & H). destruct (read_ft w) as [o1|] eqn:Ea; [|discriminate H].
    injection H as <- <-. destruct (read_ft_inv o _ _ Ea) as (a & -> & ->). exists (SFt a).
    split; [rewrite (skipn_nth _ _ _ _ En), (skipn_nth _ _ _ _ Ew); reflexivity|]. simpl. auto. }
  destruct (String.eqb s "-s") eqn:E; [apply String.eqb_eq in E; subst s|clear E].
  { apply value_cont in H. destruct H as (w & Ew & H). injection H as <- <-. fin2 En Ew (SStrat w). }
  destruct (String.eqb s "-l") eqn:E; [apply String.eqb_eq in E; subst s|clear E].
  { apply int_value_cont in H. destruct H as (w & Ew & Hi & -> & ->). fin2 En Ew (SLovasz w). }
  destruct (String.eqb s "-m") eqn:E; [apply String.eqb_eq in E; subst s|clear E].
  { apply value_cont in H. destruct H as (w & Ew & H). destruct (read_method w) as [o1|] eqn:Ea; [|discriminate H].
    injection H as <- <-. destruct (read_method_inv o _ _ Ea) as (a & -> & ->). exists (SMethod a).
    split; [rewrite (skipn_nth _ _ _ _ En), (skipn_nth _ _ _ _ Ew); reflexivity|]. simpl. auto. }
  destruct (String.eqb s "-nolll") eqn:E; [apply String.eqb_eq in E; subst s|clear E].
  { injection H as <- <-. fin1 H En SNoLll. }
  destruct (String.eqb s "-of") eqn:E; [apply String.eqb_eq in E; subst s|clear E].
  { apply value_cont in H. destruct H as (w & Ew & H). injection H as <- <-. fin2 En Ew (SFormat w). }
  destruct (String.eqb s "-p") eqn:E; [apply String.eqb_eq in E; subst s|clear E].
  { apply int_value_cont in H. destruct H as (w & Ew & Hi & -> & ->). fin2 En Ew (SPrec w). }
  destruct (String.eqb s "-v") eqn:E; [apply String.eqb_eq in E; subst s|clear E].
  { injection H as <- <-. fin1 H En SVerbose. }
  destruct (String.eqb s "-y") eqn:E; [apply String.eqb_eq in E; subst s|clear E].
  { injection H as <- <-. fin1 H En SEarly. }
  destruct (String.eqb s "-z") eqn:E; [apply String.eqb_eq in E; subst s|clear E].
  { apply value_cont in H. destruct H as (w & Ew & H). destruct (read_int w) as [o1|] eqn:Ea; [|discriminate H].
    injection H as <- <-. destruct (read_int_inv o _ _ Ea) as (a & -> & ->). exists (SIntType a).
    split; [rewrite (skipn_nth _ _ _ _ En), (skipn_nth _ _ _ _ Ew); reflexivity|]. simpl. auto. }
  destruct (String.eqb s "-h" || String.eqb s "--help")%bool; [discriminate H|].
  destruct (String.eqb s "--version"); [discriminate H|].
  destruct (is_dash s) eqn:Ed; [discriminate H|].
  destruct (o_input D o) as [f|] eqn:Ei; [discriminate H|]. injection H as <- <-.
  exists (SFile s). split; [rewrite (skipn_nth _ _ _ _ En); reflexivity|].
  split; [exact (is_dash_false_inv s Ed)|].
  split; [destruct o; unfold CmdSpec.meaning; simpl; rewrite ?or_flags_0; reflexivity|]. simpl. auto.
Qed.

Lemma int_value_undef : forall ac f, int_value D argv ac f = SUndef D -> exists w, In w argv /\ ~ int_text w.
Proof.
  intros ac f H. apply value_undef in H. destruct H as (w & Ew & H). exists w. split; [exact (nth_error_In _ _ Ew)|].
  destruct (atoi w) eqn:E; [discriminate H|]. exact (atoi_none w E).
Qed.
Lemma dbl_value_undef : forall ac f, dbl_value D atof argv ac f <> SUndef D.
Proof. intros ac f H. apply value_undef in H. destruct H as (w & Ew & H). discriminate H. Qed.

Lemma step_undef : forall ac o, (ac < length argv)%nat -> ro_step ac o = SUndef D -> exists w, In w argv /\ ~ int_text w.
Proof.
  intros ac o Hl H. unfold CmdModel.ro_step in H.
  destruct (nth_error argv ac) as [s|] eqn:En; [|apply nth_error_None in En; lia]. cbv zeta in H.
  repeat match type of H with
  | (if ?c then _ else _) = _ => destruct c
  end;
  try discriminate H;
  try (exact (int_value_undef _ _ H));
  try (exfalso; exact (dbl_value_undef _ _ H));
  try (apply value_undef in H; destruct H as (w & Ew & H));
  try discriminate H;
  repeat match type of H with
  | match ?c with Some _ => _ | None => _ end = _ => destruct c
  end; discriminate H.
Qed.

Lemma step_exit0 : forall ac o, ro_step ac o = SExit D 0 -> In "-h" argv \/ In "--help" argv \/ In "--version" argv.
Proof.
  assert (V : forall ac k, value D argv ac k = SExit D 0 -> exists w, k (S ac) w = SExit D 0).
  { intros ac k H. unfold value in H. destruct (S ac <? length argv)%nat; [|discriminate H].
    destruct (nth_error argv (S ac)) as [w|]; [exists w; exact H|discriminate H]. }
  intros ac o H. unfold CmdModel.ro_step in H.
  destruct (nth_error argv ac) as [s|] eqn:En; [|discriminate H]. cbv zeta in H.
  apply nth_error_In in En.
  repeat match type of H with
  | (if (String.eqb s "-h" || String.eqb s "--help")%bool then _ else _) = _ =>
      destruct (String.eqb s "-h") eqn:E1; [apply String.eqb_eq in E1; subst s; auto|];
      destruct (String.eqb s "--help") eqn:E2; [apply String.eqb_eq in E2; subst s; auto|]; cbn [orb] in H
  | (if String.eqb s "--version" then _ else _) = _ =>
      destruct (String.eqb s "--version") eqn:E3; [apply String.eqb_eq in E3; subst s; auto|]
  | (if ?c then _ else _) = _ => destruct c
  end;
  try discriminate H; try (unfold int_value, dbl_value in H);
  try (apply V in H; destruct H as (w & H));
  try discriminate H;
  repeat match type of H with
  | match ?c with Some _ => _ | None => _ end = _ => destruct c
  end; discriminate H.
Qed.

Lemma files_cons : forall s ss, files (s :: ss) = (match s with SFile w => [w] | _ => [] end ++ files ss)%list.
Proof. reflexivity. Qed.

Lemma skipn_all_nil : forall A n (l : list A), skipn n l = [] -> (length l <= n)%nat.
Proof. intros A n l H. apply (f_equal (@length A)) in H. rewrite skipn_length in H. simpl in H. lia. Qed.
Lemma skipn_some_lt : forall A n (l : list A) x r, skipn n l = x :: r -> (n < length l)%nat.
Proof. intros A n l x r H. apply (f_equal (@length A)) in H. rewrite skipn_length in H. simpl in H. lia. Qed.

Lemma input_meaning : forall o s, o_input D (meaning o [s]) = match s with SFile w => Some w | _ => o_input D o end.
Proof. intros o s. destruct s; reflexivity. Qed.

Lemma loop_complete : forall ss fuel ac o, skipn ac argv = flat_map words ss -> Forall proper ss ->
  (length (files ss) + (if o_input D o then 1 else 0) <= 1)%nat -> (0 < fuel)%nat -> (length argv < ac + fuel)%nat ->
  ro_loop fuel ac o = POk D (meaning o ss).
Proof.
  induction ss as [|s ss IH]; intros fuel ac o H Hp Hf H0 Hl.
  - simpl in H. apply skipn_all_nil in H. destruct fuel as [|f]; [lia|]. simpl.
    assert (E : (ac <? length argv)%nat = false) by (apply Nat.ltb_ge; lia). rewrite E. destruct o; reflexivity.
  - simpl in H. inversion Hp as [|s0 ss0 Hp1 Hp2]; subst.
    assert (Hne : exists x r, words s = x :: r) by (destruct s; simpl; eauto).
    assert (Hlt : (ac < length argv)%nat).
    { destruct Hne as (x & r & E). rewrite E in H. simpl in H. exact (skipn_some_lt _ _ _ _ _ H). }
    assert (Hm : may_file o s).
    { rewrite files_cons in Hf. destruct s; simpl; auto. rewrite app_length in Hf. simpl in Hf.
      destruct (o_input D o); [lia|reflexivity]. }
    destruct (step_complete ac o s _ H Hp1 Hm) as (ac' & Hs & Hr & Hle).
    destruct fuel as [|f]; [lia|]. simpl. apply Nat.ltb_lt in Hlt. rewrite Hlt, Hs.
    rewrite (meaning_cons o s ss). apply Nat.ltb_lt in Hlt. apply IH; [exact Hr|exact Hp2| |lia|lia].
    rewrite input_meaning. rewrite files_cons, app_length in Hf.
    destruct s; simpl in Hf |- *; try lia.
Qed.

Lemma loop_sound : forall fuel ac o o', ro_loop fuel ac o = POk D o' ->
  exists ss, skipn ac argv = flat_map words ss /\ Forall proper ss /\
    (length (files ss) + (if o_input D o then 1 else 0) <= 1)%nat /\ o' = meaning o ss.
Proof.
  induction fuel as [|f IH]; intros ac o o' H; [discriminate H|]. simpl in H.
  destruct (ac <? length argv)%nat eqn:E.
  - destruct (ro_step ac o) as [ac' o1| |] eqn:Es; try discriminate H.
    destruct (step_sound _ _ _ _ Es) as (s & H1 & H2 & -> & H3 & H4).
    destruct (IH _ _ _ H) as (ss & Ha & Hb & Hc & ->). exists (s :: ss).
    split; [simpl; rewrite H1, Ha; reflexivity|]. split; [constructor; assumption|].
    split; [|rewrite <- meaning_cons; reflexivity].
    rewrite input_meaning in Hc. rewrite files_cons, app_length.
    destruct s; simpl in Hc |- *; try exact Hc. simpl in H3. rewrite H3. lia.
  - injection H as <-. exists []. apply Nat.ltb_ge in E. split; [simpl; apply skipn_all2; lia|].
    split; [constructor|]. split; [simpl; destruct (o_input D o); lia|destruct o; reflexivity].
Qed.

Lemma loop_undef : forall fuel ac o, ro_loop fuel ac o = PUndef D -> exists w, In w argv /\ ~ int_text w.
Proof.
  induction fuel as [|f IH]; intros ac o H; [discriminate H|]. simpl in H.
  destruct (ac <? length argv)%nat eqn:E; [|discriminate H]. apply Nat.ltb_lt in E.
  destruct (ro_step ac o) as [ac' o1|c|] eqn:Es; [exact (IH _ _ H)|discriminate H|exact (step_undef _ _ E Es)].
Qed.
Lemma loop_exit0 : forall fuel ac o, ro_loop fuel ac o = PExit D 0 -> In "-h" argv \/ In "--help" argv \/ In "--version" argv.
Proof.
  induction fuel as [|f IH]; intros ac o H; [discriminate H|]. simpl in H.
  destruct (ac <? length argv)%nat eqn:E; [|discriminate H].
  destruct (ro_step ac o) as [ac' o1|c|] eqn:Es; [exact (IH _ _ H)| |discriminate H].
  injection H as ->. exact (step_exit0 _ _ Es).
Qed.
Lemma loop_fuel : forall fuel ac o, (0 < fuel)%nat -> (length argv < ac + fuel)%nat -> ro_loop fuel ac o <> PFuel D.
Proof.
  induction fuel as [|f IH]; intros ac o H0 Hl H; [lia|]. simpl in H.
  destruct (ac <? length argv)%nat eqn:E; [|discriminate H]. apply Nat.ltb_lt in E.
  destruct (ro_step ac o) as [ac' o1|c|] eqn:Es; [|discriminate H|discriminate H].
  destruct (step_sound _ _ _ _ Es) as (s & _ & _ & _ & _ & Hle).
  refine (IH _ _ _ _ H); lia.
Qed.
End Cmd.
