(** C88: the program llldiff from the command line to the exit code. *)
From Coq Require Import Ascii String List ZArith Lia Arith Bool.
From Verif Require Import Util NumVectModel NumVectProofs MatrixModel MatrixProofs MatStore IoModel IoProofs PropIo LlldiffModel.
From Verif Require CliModel PropCli.
Import ListNotations.
Local Open Scope list_scope.
Local Open Scope nat_scope.

(** ** Specification *)
Definition Opt (o : string) : Prop := o = "-c"%string \/ o = "-r"%string.
(** options -c x and -r x, which have no effect *)
Inductive Opts : list string -> Prop :=
| opts_nil : Opts []
| opts_cons o x l : Opt o -> Opts l -> Opts (o :: x :: l).
(** the argument begins with a minus *)
Definition Dashed (a : string) : Prop := exists a', a = String "-" a'.

(** where the two matrices come from: [Some] text, or [None] when the file cannot be opened *)
Inductive Source (fs : string -> option text) (stdin : text) : list string -> option text -> Prop :=
| src_stdin pre : Opts pre -> Source fs stdin pre (Some stdin)
| src_stdin1 pre o : Opts pre -> Opt o -> Source fs stdin (pre ++ [o]) (Some stdin)
| src_file pre f more : Opts pre -> ~ Dashed f -> Source fs stdin (pre ++ f :: more) (fs f).
(** the help is asked for, before any file and any wrong option *)
Definition AsksHelp (args : list string) : Prop := exists pre more, Opts pre /\ args = pre ++ "--help"%string :: more.
(** the first wrong option *)
Definition WrongOption (args : list string) (o : string) : Prop :=
  exists pre more, Opts pre /\ args = pre ++ o :: more /\ Dashed o /\ ~ Opt o /\ o <> "--help"%string.

(** entry j of row i as written, rows being filled with zeros *)
Definition ent (L : list (list Z)) (i j : nat) : Z := nth j (nth i L []) 0%Z.
(** the longest row has c entries *)
Definition Width (L : list (list Z)) (c : nat) : Prop :=
  (forall row, In row L -> List.length row <= c) /\ exists row, In row L /\ List.length row = c.
(** row i equal, or opposite and not starting with 0 *)
Definition Agree (L1 L2 : list (list Z)) : Prop := forall i, i < List.length L1 ->
  (forall j, ent L2 i j = ent L1 i j) \/ (ent L1 i 0 <> 0%Z /\ forall j, ent L2 i j = (- ent L1 i j)%Z).

(** ** The arguments *)
Lemma parse_opts pre l : Opts pre -> parse (pre ++ l) = parse l.
Proof. induction 1 as [|o x pre [-> | ->] H IH]; cbn; auto. Qed.
Lemma parse_plain a more : ~ Dashed a -> parse (a :: more) = Read (Some a).
Proof.
  intros H. cbn. destruct a as [|c a]; [reflexivity|].
  destruct (Ascii.eqb_spec c "-"%char) as [->|N]; [exfalso; apply H; now exists a|].
  cbn. assert (E : Ascii.eqb c "-" = false) by (now apply Ascii.eqb_neq). rewrite !E. cbn.
  clear H E. destruct c as [[] [] [] [] [] [] [] []]; auto. now destruct N.
Qed.
Lemma parse_wrong o more : Dashed o -> ~ Opt o -> o <> "--help"%string -> parse (o :: more) = BadOption o.
Proof.
  intros [a ->] H1 H2. cbn [parse].
  destruct (String.eqb_spec (String "-" a) "-c") as [E|_]; [destruct H1; now left|].
  destruct (String.eqb_spec (String "-" a) "-r") as [E|_]; [destruct H1; now right|].
  destruct (String.eqb_spec (String "-" a) "--help") as [E|_]; [contradiction|]. reflexivity.
Qed.

(** every command line is of one of the forms of the specification *)
Theorem args_total : forall fs stdin args,
  (exists t, Source fs stdin args t) \/ AsksHelp args \/ exists o, WrongOption args o.
Proof.
  intros fs stdin args. remember (List.length args) as n eqn:E. assert (H : List.length args <= n) by lia. clear E.
  revert args H. induction n as [|n IH]; intros args H.
  { destruct args; [|cbn in H; lia]. left. exists (Some stdin). constructor. constructor. }
  destruct args as [|a l]; [left; exists (Some stdin); constructor; constructor|].
  assert (D : Opt a \/ ~ Opt a) by (unfold Opt; destruct (string_dec a "-c"), (string_dec a "-r"); intuition).
  destruct D as [O|NO].
  - destruct l as [|x l]; [left; exists (Some stdin); apply (src_stdin1 _ _ []); [constructor|auto]|].
    destruct (IH l) as [[t S]|[[pre [more [P ->]]]|[o [pre [more (P & -> & Q)]]]]]; [cbn in H; lia| | |].
    + left. exists t. inversion S; subst.
      * constructor. constructor; auto.
      * apply (src_stdin1 _ _ (a :: x :: pre)); auto. constructor; auto.
      * apply (src_file _ _ (a :: x :: pre)); auto. constructor; auto.
    + right. left. exists (a :: x :: pre), more. split; [constructor; auto|reflexivity].
    + right. right. exists o, (a :: x :: pre), more. split; [constructor; auto|]. split; [reflexivity|auto].
  - destruct (string_dec a "--help") as [->|NH]; [right; left; exists [], l; split; [constructor|reflexivity]|].
    assert (D : Dashed a \/ ~ Dashed a).
    { destruct a as [|c a]; [right; intros [? ?]; discriminate|].
      destruct (Ascii.ascii_dec c "-"%char) as [->|N]; [left; now exists a|right; intros [a' E]; injection E as E _; contradiction]. }
    destruct D as [D|D].
    + right. right. exists a, [], l. split; [constructor|]. split; [reflexivity|]. auto.
    + left. exists (fs a). apply (src_file _ _ []); auto. constructor.
Qed.

Theorem help_and_wrong_options : forall name args fs stdin,
  (AsksHelp args -> main name args fs stdin = Exit 0 (Some ("Usage: cat matrix1 matrix2 | " ++ name)%string)) /\
  (forall o, WrongOption args o -> main name args fs stdin = Exit 1 (Some ("llldiff: invalid option '" ++ o ++ "'")%string)).
Proof.
  intros name args fs stdin. split.
  - intros (pre & more & P & ->). unfold main. rewrite parse_opts by auto. reflexivity.
  - intros o (pre & more & P & -> & D & NO & NH). unfold main. rewrite parse_opts, parse_wrong; auto.
Qed.

(** ** The comparison *)
Definition run_text (t : option text) : outcome := compare (fun _ => t) [] (Some ""%string).
Lemma main_source name args fs stdin t : Source fs stdin args t -> main name args fs stdin = run_text t.
Proof.
  intros [pre P|pre o P O|pre f more P D]; unfold main.
  - rewrite <- (app_nil_r pre), parse_opts by auto. reflexivity.
  - rewrite parse_opts by auto. destruct O as [-> | ->]; reflexivity.
  - rewrite parse_opts, parse_plain by auto. reflexivity.
Qed.

Lemma read_ok old s L rest : RowsAt s L rest -> exists m, mread old s = Some (m, Some rest) /\ is_matrix_of L m.
Proof.
  intros H. destruct (read_accepts_exactly_the_grammar old s) as (m & o & R & A & _). destruct (A L rest H) as [-> M]. eauto.
Qed.

Lemma width_is L m c : is_matrix_of L m -> Width L c -> mc m = c.
Proof.
  intros (_ & _ & H3 & H4 & _) [W1 (row & W2 & W3)]. pose proof (H3 row W2).
  destruct H4 as [H4|(q & Q1 & Q2)]; [lia|]. pose proof (W1 q Q1). lia.
Qed.
Lemma is_matrix_dims L m c : is_matrix_of L m -> mc m = c -> dims (List.length L) c (ms m).
Proof. intros (H1 & H2 & H3 & H4 & H5) <-. split; auto. intros i Hi. apply (H5 i Hi). Qed.
Lemma ent_stored L m i j : is_matrix_of L m -> i < List.length L -> nth j (nth i (ms m) []) 0%Z = ent L i j.
Proof.
  intros (H1 & H2 & H3 & H4 & H5) Hi. destruct (H5 i Hi) as [E F]. destruct (Nat.lt_ge_cases j (mc m)); [now apply F|].
  unfold ent. rewrite !nth_overflow; auto; [|lia]. pose proof (H3 (nth i L []) (nth_In _ _ Hi)). lia.
Qed.
Lemma row_eq (a b : list Z) : List.length a = List.length b -> (a = b <-> forall j, nth j a 0%Z = nth j b 0%Z).
Proof. intros L. split; [now intros ->|]. intros H. apply (nth_ext a b 0%Z 0%Z); auto. Qed.
Lemma nth_map_opp (a : list Z) j : nth j (map Z.opp a) 0%Z = (- nth j a 0)%Z.
Proof. change 0%Z with (Z.opp 0) at 1. apply map_nth. Qed.

(** Whatever the options, the program told to read two matrices of the same numbers of rows and
    columns (at least one of each) prints a message and returns 1 unless the rows agree up to sign. *)
Theorem llldiff_program_right : forall name args fs stdin s L1 s1 L2 s2 c,
  Source fs stdin args (Some s) -> RowsAt s L1 s1 -> RowsAt s1 L2 s2 ->
  List.length L1 = List.length L2 -> Width L1 c -> Width L2 c -> 1 <= c ->
  (Agree L1 L2 -> main name args fs stdin = Exit 0 None) /\
  (~ Agree L1 L2 -> main name args fs stdin = Exit 1 (Some "===INVALID RESULT==="%string)).
Proof.
  intros name args fs stdin s L1 s1 L2 s2 c S R1 R2 HL W1 W2 Hc.
  rewrite (main_source _ _ _ _ _ S). unfold run_text, compare, read_from.
  destruct (read_ok mat_empty _ _ _ R1) as (m1 & -> & M1). destruct (read_ok mat_empty _ _ _ R2) as (m2 & -> & M2).
  pose proof (is_matrix_dims _ _ _ M1 (width_is _ _ _ M1 W1)) as D1.
  pose proof (is_matrix_dims _ _ _ M2 (width_is _ _ _ M2 W2)) as D2.
  destruct (PropCli.llldiff_exact (List.length L1) c (ms m1) (ms m2) Hc D1) as (t & T1 & _ & T3); [rewrite HL; exact D2|].
  assert (A : t = 0%Z <-> Agree L1 L2).
  { rewrite T3. unfold Agree. destruct D1 as [DL1 DR1], D2 as [DL2 DR2].
    assert (X : forall i, i < List.length L1 -> (nth i (ms m2) [] = nth i (ms m1) [] <-> forall j, ent L2 i j = ent L1 i j) /\
      (nth i (ms m2) [] = map Z.opp (nth i (ms m1) []) <-> forall j, ent L2 i j = (- ent L1 i j)%Z) /\
      nth 0 (nth i (ms m1) []) 0%Z = ent L1 i 0).
    { intros i Hi. assert (Hi2 : i < List.length L2) by lia. split; [|split; [|now apply ent_stored]].
      - rewrite row_eq by (rewrite DR1, DR2; auto).
        split; intros H j; specialize (H j); rewrite (ent_stored L2 m2), (ent_stored L1 m1) in *; auto.
      - rewrite row_eq by (rewrite map_length, DR1, DR2; auto).
        split; intros H j; specialize (H j); rewrite nth_map_opp, (ent_stored L2 m2), (ent_stored L1 m1) in *; auto. }
    split; intros H i Hi; destruct (X i Hi) as (X1 & X2 & X3); specialize (H i Hi).
    - destruct H as [H|[H0 H]]; [left; now apply X1|right; split; [now rewrite <- X3|now apply X2]].
    - destruct H as [H|[H0 H]]; [left; now apply X1|right; split; [now rewrite X3|now apply X2]]. }
  unfold CliModel.llldiff_main in T1. cbn [CliModel.m_rows CliModel.m_cols] in T1.
  rewrite (width_is _ _ _ M1 W1). replace (mr m1) with (List.length (ms m1)) by (destruct D1 as [-> _]; now destruct M1 as (-> & _)).
  destruct (CliModel.llldiff (ms m1) (ms m2) c (List.length (ms m1))) as [[]|] eqn:E; cbn [obind] in T1; [| |discriminate T1];
    injection T1 as <-; split; intros H; auto.
  - destruct H. now apply A.
  - apply A in H. discriminate H.
Qed.

(** the loops that read never run out of fuel *)
Theorem llldiff_program_ends : forall name args fs stdin, main name args fs stdin <> Stuck.
Proof.
  intros name args fs stdin. unfold main. destruct (parse args) as [| |src]; try discriminate. unfold compare.
  assert (R : forall o, exists m o', read_from mat_empty o = Some (m, o')).
  { intros [t|]; cbn [read_from]; eauto. destruct (read_accepts_exactly_the_grammar mat_empty t) as (m & o & H & _). eauto. }
  destruct (R (match src with Some f => fs f | None => Some stdin end)) as (m1 & o1 & ->). destruct (R o1) as (m2 & o2 & ->).
  destruct (CliModel.llldiff _ _ _ _) as [[]|]; discriminate.
Qed.

(** "exit code 0 only after two matrices were read and found equal" is false: a file that cannot be
    opened, a text that is no matrix and a second matrix cut off after its last row give 0 as well *)
Theorem llldiff_program_success_refuted :
  (exists name args fs stdin, Source fs stdin args None /\ main name args fs stdin = Exit 0 None) /\
  (exists name args fs stdin, Source fs stdin args (Some (txt "no matrix")) /\
     (forall L rest, ~ RowsAt (txt "no matrix") L rest) /\ main name args fs stdin = Exit 0 None) /\
  (exists name args fs s L1 s1, Source fs s args (Some s) /\ RowsAt s L1 s1 /\
     (forall L2 s2, ~ RowsAt s1 L2 s2) /\ main name args fs s = Exit 0 None).
Proof.
  split; [|split].
  - exists "llldiff"%string, ["missing.txt"%string], (fun _ => None), []. split; [|reflexivity].
    apply (src_file (fun _ => None) [] [] "missing.txt"%string []); [constructor|]. intros [a' E]. discriminate E.
  - exists "llldiff"%string, [], (fun _ => None), (txt "no matrix"). split; [constructor; constructor|]. split; [|vm_compute; reflexivity].
    intros L rest H. destruct (read_ok mat_empty _ _ _ H) as (m & E & _). vm_compute in E. discriminate E.
  - exists "llldiff"%string, [], (fun _ => None), (txt "[[1 2]][[1 2]").
    destruct (read_accepts_exactly_the_grammar mat_empty (txt "[[1 2]][[1 2]")) as (m & o & E & _ & G).
    vm_compute in E. injection E as <- <-. destruct (G _ eq_refl) as (L & R & _).
    eexists L, _. split; [constructor; constructor|]. split; [exact R|]. split; [|vm_compute; reflexivity].
    intros L2 s2 H. destruct (read_ok mat_empty _ _ _ H) as (m2 & E & _). vm_compute in E. discriminate E.
Qed.
(** a well-formed first matrix alone: undefined behaviour *)
Theorem llldiff_one_matrix_undefined : forall name args fs stdin s L1 s1 c,
  Source fs stdin args (Some s) -> RowsAt s L1 s1 -> Width L1 c -> 1 <= c -> (forall w, In w s1 -> is_blank w = true) ->
  main name args fs stdin = Undef.
Proof.
  intros name args fs stdin s L1 s1 c S R W Hc B. rewrite (main_source _ _ _ _ _ S). unfold run_text, compare, read_from.
  destruct (read_ok mat_empty _ _ _ R) as (m1 & -> & M1).
  assert (G : getc s1 = None).
  { clear R. induction s1 as [|a s1 IH]; auto. cbn [getc]. rewrite B by now left. apply IH. intros w Hw. apply B. now right. }
  unfold mread. rewrite G. cbn [ms].
  assert (Hr : 0 < List.length L1) by (destruct W as [_ (row & W2 & _)]; destruct L1; [destruct W2|cbn; lia]).
  destruct M1 as (-> & _). unfold CliModel.llldiff. destruct (List.length L1) as [|n]; [lia|]. cbn [seq ofor].
  unfold CliModel.diff_row at 1. destruct (mget (ms m1) 0 0); reflexivity.
Qed.

(** instances: options skipped, rows up to sign, short rows; a difference; one matrix only *)
Example two_ex :
  Source (fun f => if String.eqb f "f" then Some (txt "[[1 2][3]] [[-1 -2][3 0]]") else None) []
    ["-c"; "-x"; "f"; "--help"]%string (Some (txt "[[1 2][3]] [[-1 -2][3 0]]")) /\
  main "llldiff" ["-c"; "-x"; "f"; "--help"]%string
    (fun f => if String.eqb f "f" then Some (txt "[[1 2][3]] [[-1 -2][3 0]]") else None) [] = Exit 0 None /\
  main "llldiff" ["-r"]%string (fun _ => None) (txt "[[1 2][3]] [[1 -2][3 0]]") = Exit 1 (Some "===INVALID RESULT==="%string) /\
  main "llldiff" [] (fun _ => None) (txt "[[1 2][3]] ") = Undef /\
  main "llldiff" ["-"]%string (fun _ => None) [] = Exit 1 (Some "llldiff: invalid option '-'"%string).
Proof.
  split; [|vm_compute; repeat split].
  apply (src_file (fun f => if String.eqb f "f" then Some (txt "[[1 2][3]] [[-1 -2][3 0]]") else None) [] ["-c"; "-x"]%string "f"%string ["--help"%string]).
  - constructor; [now left|constructor].
  - intros [a' E]. discriminate E.
Qed.
Example two_hyps : exists s1 s2, RowsAt (txt "[[1 2][3]] [[-1 -2][3 0]]") [[1; 2]; [3]]%Z s1 /\ RowsAt s1 [[-1; -2]; [3; 0]]%Z s2 /\
  Width [[1; 2]; [3]]%Z 2 /\ Width [[-1; -2]; [3; 0]]%Z 2 /\ Agree [[1; 2]; [3]]%Z [[-1; -2]; [3; 0]]%Z.
Proof.
  assert (Q : forall s M o, mread mat_empty s = Some (finish M, Some o) -> forall L, RowsAt s L o -> is_matrix_of L (finish M)).
  { intros s M o E L H. destruct (read_ok mat_empty _ _ _ H) as (m & E' & K). rewrite E in E'. injection E' as <-. exact K. }
  exists (txt " [[-1 -2][3 0]]"), [].
  assert (I : forall c d rest k, Digit c d -> StopsHere rest -> k = d -> IntAt (c :: rest) k rest).
  { intros ch d rest k H1 H2 ->. apply (int_pos [] [ch]); auto; constructor. exact H1. }
  assert (IN : forall c d rest k, Digit c d -> StopsHere rest -> k = (- d)%Z -> IntAt ("-"%char :: c :: rest) k rest).
  { intros ch d rest k H1 H2 ->. apply (int_neg [] [] [ch]); auto; constructor. exact H1. }
  assert (IS : forall c d rest k, Digit c d -> StopsHere rest -> k = d -> IntAt (" "%char :: c :: rest) k rest).
  { intros ch d rest k H1 H2 ->. apply (int_pos [" "%char] [ch]); auto; [repeat constructor|constructor; exact H1]. }
  assert (INS : forall c d rest k, Digit c d -> StopsHere rest -> k = (- d)%Z -> IntAt (" "%char :: "-"%char :: c :: rest) k rest).
  { intros ch d rest k H1 H2 ->. apply (int_neg [" "%char] [] [ch]); auto; [repeat constructor|constructor|constructor; exact H1]. }
  assert (DG : forall n, n < 10 -> Digit (ascii_of_nat (48 + n)) (Z.of_nat n)).
  { intros n Hn. exists n. split; auto. do 10 (destruct n; [reflexivity|]). lia. }
  assert (E0 : forall (A : Type) (it : text -> A -> text -> Prop) rest, ItemsAt it ("]"%char :: rest) [] rest) by (intros; apply (items_end it []); constructor).
  assert (L0 : forall (A : Type) (it : text -> A -> text -> Prop) s l rest, ItemsAt it s l rest -> ListAt it ("["%char :: s) l rest) by (intros; apply (list_at it []); auto; constructor).
  assert (L1 : forall (A : Type) (it : text -> A -> text -> Prop) s l rest, ItemsAt it s l rest -> ListAt it (" "%char :: "["%char :: s) l rest) by (intros; apply (list_at it [" "%char]); auto; repeat constructor).
  pose proof (DG 0 ltac:(lia)) as G0. pose proof (DG 1 ltac:(lia)) as G1. pose proof (DG 2 ltac:(lia)) as G2. pose proof (DG 3 ltac:(lia)) as G3.
  pose proof space_stops as SS. pose proof close_stops as CS.
  split; [|split; [|split; [|split]]].
  - apply L0. eapply items_cons; [apply L0; eapply items_cons; [apply (I _ _ _ _ G1); auto|]; eapply items_cons; [apply (IS _ _ _ _ G2); auto|]; apply E0|].
    eapply items_cons; [apply L0; eapply items_cons; [apply (I _ _ _ _ G3); auto|]; apply E0|]. apply E0.
  - apply L1. eapply items_cons; [apply L0; eapply items_cons; [apply (IN _ _ _ _ G1); auto|]; eapply items_cons; [apply (INS _ _ _ _ G2); auto|]; apply E0|].
    eapply items_cons; [apply L0; eapply items_cons; [apply (I _ _ _ _ G3); auto|]; eapply items_cons; [apply (IS _ _ _ _ G0); auto|]; apply E0|]. apply E0.
  - split; [intros row [<-|[<-|[]]]; cbn; lia|]. eexists. split; [left; reflexivity|reflexivity].
  - split; [intros row [<-|[<-|[]]]; cbn; lia|]. eexists. split; [left; reflexivity|reflexivity].
  - intros [|[|i]] Hi; [right; split; [discriminate|]|left|cbn in Hi; lia]; intros [|[|[|j]]]; reflexivity.
Qed.

Print Assumptions args_total.
Print Assumptions help_and_wrong_options.
Print Assumptions llldiff_program_right.
Print Assumptions llldiff_program_ends.
Print Assumptions llldiff_program_success_refuted.
Print Assumptions llldiff_one_matrix_undefined.
