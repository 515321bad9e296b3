(** C39: matrix text output and input. *)
From Coq Require Import List ZArith Lia Arith Bool Ascii String.
From Verif Require Import Util NumVectModel NumVectProofs MatrixModel MatrixProofs MatStore IoModel IoProofs.
Import ListNotations.
Local Open Scope list_scope.
Local Open Scope nat_scope.

(** the object m is the matrix with the rows L, short rows filled with zeros *)
Definition is_matrix_of (L : list (list Z)) (m : mat (T := Z)) : Prop :=
  mr m = List.length L /\ List.length (ms m) = List.length L /\
  (forall row, In row L -> List.length row <= mc m) /\
  (mc m = 0 \/ exists row, In row L /\ List.length row = mc m) /\
  forall i, i < List.length L ->
    List.length (nth i (ms m) []) = mc m /\
    forall j, j < mc m -> nth j (nth i (ms m) []) 0%Z = nth j (nth i L []) 0%Z.

Lemma finish_is L : is_matrix_of L (finish L).
Proof.
  split; [reflexivity|]. split; [cbn; apply map_length|]. destruct (max_len_fold L 0) as [_ [H2 H3]].
  split; [exact H2|]. split.
  - destruct H3 as [H3|[row [H3 H4]]]; [left; exact H3|right; exists row; split; auto].
  - intros i Hi. split; [apply finish_rows; auto|]. intros j Hj. unfold finish in *. cbn [ms mc] in *.
    rewrite (map_nth_lt _ _ _ [] _ Hi). unfold pad.
    destruct (Nat.lt_ge_cases j (List.length (nth i L []))).
    + now rewrite app_nth1.
    + rewrite app_nth2 by auto. rewrite (nth_overflow (nth i L [])) by auto. apply nth_repeat.
Qed.

Lemma is_matrix_unique L m : is_matrix_of L m -> m = finish L.
Proof.
  intros [H1 [H2 [H3 [H4 H5]]]]. destruct (finish_is L) as [G1 [G2 [G3 [G4 G5]]]].
  assert (C : mc m = mc (finish L)).
  { destruct H4 as [H4|[r [Hr H4]]]; destruct G4 as [G4|[q [Hq G4]]]; try lia.
    - pose proof (H3 q Hq). lia.
    - pose proof (G3 r Hr). lia.
    - pose proof (H3 q Hq). pose proof (G3 r Hr). lia. }
  destruct m as [r c M]. cbn [mr mc ms] in *. destruct (finish L) as [r' c' M']. cbn [mr mc ms] in *. f_equal; try congruence.
  apply nth_ext with [] []; [congruence|]. intros i Hi. rewrite H2 in Hi. destruct (H5 i Hi) as [A1 A2]. destruct (G5 i Hi) as [B1 B2].
  apply nth_ext with 0%Z 0%Z; [congruence|]. intros j Hj. rewrite A2, B2 by lia. auto.
Qed.

(** * The reader accepts exactly the texts of the grammar, leaves the stream just
    behind the matrix, and builds the matrix of the text. *)
Theorem read_accepts_exactly_the_grammar :
  forall old s, exists m o, mread old s = Some (m, o) /\
    (forall L rest, RowsAt s L rest -> o = Some rest /\ is_matrix_of L m) /\
    (forall rest, o = Some rest -> exists L, RowsAt s L rest /\ is_matrix_of L m).
Proof.
  intros old s. unfold mread. destruct (getc s) as [[c s1]|] eqn:E.
  - pose proof E as E'. apply getc_spec in E'. destruct E' as [w [Hw [Es Hc]]]. destruct (Ascii.eqb_spec c c_open).
    + destruct (row_loop_spec (S (List.length s1)) s1 []) as [M' [o [F1 F2]]]; [lia|]. rewrite F1. cbn [obind fst snd].
      exists (finish M'), o. split; auto. split.
      * intros L rest H. pose proof H as H'. inversion H' as [w' s' l' rest' Hw' Hi Eq].
        rewrite <- Eq in E. rewrite open_getc in E by auto. injection E as E1 E2. subst s1.
        destruct (F2 L rest) as [_ F3]. destruct F3 as [F3 F4]; [exists L; auto|]. cbn in F3. subst M'. split; auto.
        apply finish_is.
      * intros rest Ho. destruct (F2 M' rest) as [F3 _]. destruct F3 as [L' [E1 E2]]; [auto|]. cbn in E1. subst L'.
        exists M'. split; [|apply finish_is]. subst s c. exact (list_at RowAt w s1 M' rest Hw E2).
    + eexists _, _. split; [reflexivity|]. split; [|discriminate]. intros L rest H. exfalso.
      inversion H as [w' s' l' rest' Hw' Hi Eq]. rewrite <- Eq in E. rewrite open_getc in E by auto. congruence.
  - eexists _, _. split; [reflexivity|]. split; [|discriminate]. intros L rest H. exfalso.
    inversion H as [w' s' l' rest' Hw' Hi Eq]. rewrite <- Eq in E. rewrite open_getc in E by auto. congruence.
Qed.

(** instance: white space, a sign apart from its digits, adjacent integers and a
    short row *)
Definition txt (s : string) : text := list_ascii_of_string s.
Example ex_read : mread mat_empty (txt " [ [1 - 2-03][]  [ 4] ] tail") =
  Some (mkmat 3 3 [[1; -2; -3]; [0; 0; 0]; [4; 0; 0]]%Z, Some (txt " tail")).
Proof. vm_compute. reflexivity. Qed.

(** ** Ill-formed text *)
Definition consistent (m : mat (T := Z)) : Prop :=
  List.length (ms m) = mr m /\ forall i, i < mr m -> List.length (nth i (ms m) []) = mc m.

(** every text outside the grammar fails the stream, and the matrix is
    consistent provided it was empty before or the text begins with '[' *)
Theorem ill_formed_text_fails_consistently :
  forall old s, (forall L rest, ~ RowsAt s L rest) ->
    exists m, mread old s = Some (m, None) /\
      ((mr old = 0 \/ exists w s', Blanks w /\ s = w ++ "["%char :: s') -> consistent m).
Proof.
  intros old s HN. destruct (read_accepts_exactly_the_grammar old s) as [m [o [E [_ F]]]].
  assert (o = None). { destruct o as [rest|]; auto. destruct (F rest eq_refl) as [L [H _]]. destruct (HN _ _ H). }
  subst o. exists m. split; auto. intros HC. unfold mread in E. destruct (getc s) as [[c s1]|] eqn:G.
  - destruct (Ascii.eqb_spec c c_open).
    + destruct (row_loop (S (List.length s1)) s1 []) as [[M o]|]; [|discriminate]. cbn [obind fst snd] in E. injection E as <- _.
      destruct (finish_is M) as [H1 [H2 [_ [_ H3]]]]. split; [lia|]. intros i Hi. rewrite H1 in Hi. apply H3; auto.
    + injection E as <-. destruct HC as [HC|[w [s' [Hw ->]]]].
      * split; cbn; lia.
      * change (w ++ "["%char :: s') with (w ++ ["["%char] ++ s') in G. rewrite open_getc in G by auto. congruence.
  - injection E as <-. destruct HC as [HC|[w [s' [Hw ->]]]].
    + split; cbn; lia.
    + change (w ++ "["%char :: s') with (w ++ ["["%char] ++ s') in G. rewrite open_getc in G by auto. congruence.
Qed.
Example ex_ill_formed : mread (mkmat 1 1 [[7%Z]]) (txt "[[1 2][3 x]]") = Some (mkmat 1 2 [[1; 2]]%Z, None).
Proof. vm_compute. reflexivity. Qed.

(** the condition is needed: reading "x" (or nothing) into a 1 x 2 matrix leaves
    get_rows() = 1 and get_cols() = 2 with no row stored, so that m(0,0) is out
    of bounds *)
Theorem failed_read_consistent_refuted :
  exists old m, consistent old /\ mread old (txt "x") = Some (m, None) /\ mread old (txt "") = Some (m, None) /\
    mr m = 1 /\ mc m = 2 /\ mget (ms m) 0 0 = None.
Proof. exists (mkmat 1 2 [[3; 4]]%Z). eexists. split; [|split; [vm_compute; reflexivity|split; [vm_compute; reflexivity|auto]]].
  split; auto. cbn. intros i Hi. assert (i = 0) by lia. now subst. Qed.

(** an integer that ends with the stream is refused (nr_Z_mpz.inl:269-274: the
    eof branch cannot be reached, get sets failbit as well) *)
Theorem integer_at_end_of_stream_refuted :
  exists t n, Decimal t n /\ read_z t = None /\ read_z (t ++ [" "%char]) = Some (n, [" "%char]).
Proof.
  exists (txt "15"), 15%Z. split; [|vm_compute; auto].
  apply (dec_snoc ["1"%char] 1 "5"%char 5); [apply dec_one; exists 1|exists 5]; auto.
Qed.

(** ** Round trip *)
Lemma digit_chr_digit d : (0 <= d < 10)%Z -> Digit (digit_chr d) d.
Proof.
  intros H. exists (Z.to_nat d). split; [|lia].
  assert (Hd : Z.to_nat d < 10) by lia. unfold digit_chr. remember (Z.to_nat d) as k. clear - Hd.
  do 10 (destruct k; [reflexivity|]). lia.
Qed.
Lemma dec_digits_ok fuel : forall n, (0 <= n < 2 ^ Z.of_nat fuel)%Z -> 0 < fuel -> Decimal (dec_digits fuel n) n.
Proof.
  induction fuel as [|fuel IH]; intros n Hn Hf; [lia|]. cbn [dec_digits].
  destruct (Z.ltb_spec n 10).
  - constructor. apply digit_chr_digit. lia.
  - assert (Hd : (n = 10 * (n / 10) + n mod 10)%Z) by (apply Z.div_mod; lia).
    assert (Hm := Z.mod_pos_bound n 10 ltac:(lia)).
    rewrite Hd at 3. constructor; [|apply digit_chr_digit; lia].
    rewrite Nat2Z.inj_succ, Z.pow_succ_r in Hn by lia.
    apply IH; [split; [apply Z.div_pos; lia|]; lia|].
    destruct fuel; [cbn in Hn; lia|lia].
Qed.
Lemma abs_fuel z : (0 <= Z.abs z < 2 ^ Z.of_nat (S (Z.to_nat (Z.log2 (Z.abs z)))))%Z.
Proof.
  split; [lia|]. rewrite Nat2Z.inj_succ, Z2Nat.id by apply Z.log2_nonneg.
  destruct (Z.eq_dec (Z.abs z) 0) as [E|E]; [rewrite E; cbn; lia|]. apply Z.log2_spec. lia.
Qed.

(** mpz_get_str: sign and decimal digits *)
Theorem printed_integer_reads_back :
  forall z rest, StopsHere rest -> IntAt (show_z z ++ rest) z rest /\ read_z (show_z z ++ rest) = Some (z, rest).
Proof.
  intros z rest Hr. assert (H : IntAt (show_z z ++ rest) z rest).
  { unfold show_z. pose proof (dec_digits_ok _ _ (abs_fuel z) ltac:(lia)) as D.
    destruct (Z.ltb_spec z 0).
    - replace z with (- Z.abs z)%Z at 3 by lia. rewrite <- app_assoc.
      apply (int_neg [] [] _ _ _); auto; constructor.
    - replace z with (Z.abs z) at 3 by lia. cbn [app]. apply (int_pos [] _ _ _); auto. constructor. }
  split; auto. now apply read_z_spec.
Qed.

Lemma space_stops s : StopsHere (" "%char :: s).
Proof. exists " "%char, s. split; auto. now apply not_digit. Qed.
Lemma close_stops s : StopsHere ("]"%char :: s).
Proof. exists "]"%char, s. split; auto. now apply not_digit. Qed.

Lemma print_row_ok M i row n : nth_error M i = Some row -> forall a, a + n <= List.length row ->
  exists t, print_row M i (seq a n) = Some t /\
    (0 < a -> t = [] \/ exists t', t = " "%char :: t') /\
    forall s l rest, StopsHere s -> ItemsAt IntAt s l rest ->
      ItemsAt IntAt (t ++ s) (map (fun j => nth j row 0%Z) (seq a n) ++ l) rest.
Proof.
  intros HM. induction n as [|n IH]; intros a Ha; cbn [seq print_row map app].
  - exists []. split; auto.
  - destruct (IH (S a)) as [t [E [Hd Hi]]]; [lia|]. unfold mget at 1. rewrite HM. cbn [obind].
    rewrite (nth_error_nth' row 0%Z) by lia. cbn [obind]. rewrite E. cbn [obind]. eexists. split; [reflexivity|]. split.
    + intros H0. right. destruct (Nat.ltb_spec 0 a); [|lia]. eexists. reflexivity.
    + intros s l rest Hs Hl. specialize (Hi s l rest Hs Hl).
      assert (Q : StopsHere (t ++ s)).
      { destruct (Hd ltac:(lia)) as [->|[t' ->]]; [exact Hs|apply space_stops]. }
      apply items_cons with (t ++ s); auto.
      destruct (printed_integer_reads_back (nth a row 0%Z) (t ++ s) Q) as [P _].
      destruct (0 <? a); cbn [app].
      * change (c_space :: (show_z (nth a row 0%Z) ++ t) ++ s) with ([" "%char] ++ (show_z (nth a row 0%Z) ++ t) ++ s).
        rewrite <- app_assoc. apply IntAt_blanks; auto. repeat constructor.
      * rewrite <- app_assoc. exact P.
Qed.

Lemma blank_space : Blanks [" "%char]. Proof. repeat constructor. Qed.
Lemma blank_nl : Blanks [c_nl]. Proof. constructor; [|constructor]. apply is_blank_spec. reflexivity. Qed.

Lemma print_rows_ok mode M nc n : forall a,
  (forall i, a <= i < a + n -> exists row, nth_error M i = Some row /\ nc <= List.length row) ->
  exists t, print_rows mode M nc (seq a n) = Some t /\
    forall s l rest, ItemsAt RowAt s l rest ->
      ItemsAt RowAt (t ++ s) (map (fun i => map (fun j => nth j (nth i M []) 0%Z) (seq 0 nc)) (seq a n) ++ l) rest.
Proof.
  induction n as [|n IH]; intros a Ha; cbn [seq print_rows map].
  - exists []. split; auto.
  - destruct (IH (S a)) as [t [E Hi]]; [intros; apply Ha; lia|].
    destruct (Ha a ltac:(lia)) as [row [HM Hl]].
    destruct (print_row_ok M a row nc HM 0 ltac:(lia)) as [tr [Er [_ Hr]]]. rewrite Er, E. cbn [obind].
    eexists. split; [reflexivity|]. intros s l rest Hs. specialize (Hi s l rest Hs).
    apply items_cons with (t ++ s); auto. rewrite (nth_error_nth M a [] HM).
    set (gap := match mode with Regular => if 0 <? nc then [c_space] else [] | Compact => [] end).
    assert (Hg : Blanks gap).
    { unfold gap. destruct mode; [constructor|]. destruct (0 <? nc); [exact blank_space|constructor]. }
    assert (R : RowAt ([c_open] ++ tr ++ gap ++ [c_close] ++ t ++ s) (map (fun j => nth j row 0%Z) (seq 0 nc)) (t ++ s)).
    { apply (list_at IntAt []); [constructor|].
      rewrite <- (app_nil_r (map _ _)). apply Hr.
      - unfold gap. destruct mode; [apply close_stops|]. destruct (0 <? nc); [apply space_stops|apply close_stops].
      - apply (items_end IntAt gap); auto. }
    cbn [app] in R |- *. repeat (rewrite <- !app_assoc || cbn [app]). destruct (0 <? a); cbn [app].
    + apply (RowAt_blanks [c_nl]); [exact blank_nl|exact R].
    + exact R.
Qed.

(** number of rows (columns) printed for the arguments nrows (ncols) *)
Definition shown (n : Z) (d : nat) : nat := if Z_lt_dec n 0 then d else Nat.min d (Z.to_nat n).
Lemma clip_shown n d : clip n d = shown n d.
Proof. unfold clip, shown. destruct (Z.ltb_spec n 0); destruct (Z_lt_dec n 0); cbn [orb]; try lia. destruct (Z.ltb_spec (Z.of_nat d) n); lia. Qed.

(** * Every matrix - whatever stale storage it carries - prints, in both modes
    and for all limits nrows, ncols, a text that is read back as its upper left
    part, into any object, leaving the rest of the stream. *)
Theorem print_then_read :
  forall mode (m : mat (T := Z)) nrows ncols old rest, stored m ->
    (0 < shown nrows (mr m) \/ shown ncols (mc m) = 0) ->
    exists t m', mprint mode m nrows ncols = Some t /\ mread old (t ++ rest) = Some (m', Some rest) /\
      mr m' = shown nrows (mr m) /\ mc m' = shown ncols (mc m) /\ consistent m' /\
      forall i j, i < mr m' -> j < mc m' -> mget (ms m') i j = mget (ms m) i j.
Proof.
  intros mode m nrows ncols old rest [S1 S2] HC. unfold mprint. rewrite !clip_shown.
  set (n := shown nrows (mr m)) in *. set (k := shown ncols (mc m)) in *.
  assert (Hn : n <= mr m) by (unfold n, shown; destruct (Z_lt_dec nrows 0); lia).
  assert (Hk : k <= mc m) by (unfold k, shown; destruct (Z_lt_dec ncols 0); lia).
  assert (ROW : forall i, i < n -> exists row, nth_error (ms m) i = Some row /\ k <= List.length row).
  { intros i Hi. destruct (nth_error (ms m) i) as [row|] eqn:E; [|apply nth_error_None in E; lia].
    exists row. split; auto. destruct (Nat.lt_ge_cases (List.length row) k) as [H|H]; auto. exfalso.
    apply (S2 i (List.length row)); [lia|lia|]. unfold mget. rewrite E. cbn. apply nth_error_None. lia. }
  destruct (print_rows_ok mode (ms m) k n 0) as [t [E Hi]]; [intros i Hi; apply ROW; lia|]. rewrite E. cbn [obind].
  eexists. set (L := map (fun i => map (fun j => nth j (nth i (ms m) []) 0%Z) (seq 0 k)) (seq 0 n)) in *.
  set (gap := match mode with Regular => if 0 <? n then [c_nl] else [] | Compact => [] end).
  assert (Hg : Blanks gap).
  { unfold gap. destruct mode; [constructor|]. destruct (0 <? n); [exact blank_nl|constructor]. }
  assert (RL : RowsAt (([c_open] ++ t ++ gap ++ [c_close]) ++ rest) L rest).
  { rewrite <- !app_assoc. apply (list_at RowAt []); [constructor|]. rewrite <- (app_nil_r L). apply Hi.
    apply (items_end RowAt gap); auto. }
  destruct (read_accepts_exactly_the_grammar old (([c_open] ++ t ++ gap ++ [c_close]) ++ rest)) as [m' [o [Er [F _]]]].
  apply F in RL. destruct RL as [-> IM]. exists m'. split; [reflexivity|]. split; [exact Er|].
  destruct IM as [M1 [M2 [M3 [M4 M5]]]].
  assert (LL : List.length L = n) by (unfold L; now rewrite map_length, seq_length).
  assert (LR : forall i, i < n -> nth i L [] = map (fun j => nth j (nth i (ms m) []) 0%Z) (seq 0 k)).
  { intros i Hi'. unfold L. rewrite (map_nth_lt _ _ _ 0) by (now rewrite seq_length). now rewrite seq_nth. }
  assert (LN : forall row, In row L -> List.length row = k).
  { intros row Hin. unfold L in Hin. apply in_map_iff in Hin. destruct Hin as [i [<- _]]. now rewrite map_length, seq_length. }
  assert (MC : mc m' = k).
  { destruct M4 as [M4|[row [Hin M4]]]; [|rewrite <- M4; auto]. destruct (Nat.eq_dec n 0) as [Z0|Z0]; [lia|].
    assert (In0 : In (nth 0 L []) L) by (apply nth_In; lia). pose proof (M3 _ In0) as Q. rewrite LR, map_length, seq_length in Q by lia. lia. }
  rewrite LL in *. split; [lia|]. split; auto. split.
  - split; [lia|]. intros i Hi'. apply M5. lia.
  - intros i j Hi' Hj. destruct (M5 i ltac:(lia)) as [A1 A2]. destruct (ROW i ltac:(lia)) as [row [HR HL]].
    unfold mget. rewrite (nth_error_nth' (ms m') []) by lia. rewrite HR. cbn [obind].
    rewrite (nth_error_nth' (nth i (ms m') []) 0%Z) by lia. rewrite (nth_error_nth' row 0%Z) by lia. f_equal.
    rewrite A2, LR by lia. rewrite (map_nth_lt _ _ _ 0) by (rewrite seq_length; lia). rewrite seq_nth by lia.
    now rewrite (nth_error_nth _ _ [] HR).
Qed.

(** instance with stale storage: a 2 x 2 matrix kept in three longer rows *)
Definition ex_m : mat := mkmat 2 2 [[10; -7; 99]; [0; 123456789012345678901234567890]; [5]]%Z.
Example ex_m_stored : stored ex_m.
Proof. split; cbn; [lia|]. intros i j Hi Hj. do 2 (destruct i; [do 2 (destruct j; [discriminate|]); lia|]). lia. Qed.
Example ex_print_compact : mprint Compact ex_m (-1) (-1) = Some (txt "[[10 -7]" ++ [c_nl] ++ txt "[0 123456789012345678901234567890]]").
Proof. vm_compute. reflexivity. Qed.
Example ex_print_regular : mprint Regular ex_m (-1) 1 = Some (txt "[[10 ]" ++ [c_nl] ++ txt "[0 ]" ++ [c_nl] ++ txt "]").
Proof. vm_compute. reflexivity. Qed.

(** the side condition is needed: a 0 x 3 matrix prints as "[]" and is read back
    as 0 x 0 *)
Theorem print_then_read_empty_refuted :
  exists (m : mat (T := Z)) t m', stored m /\ mc m = 3 /\ mprint Compact m (-1) (-1) = Some t /\
    mread mat_empty t = Some (m', Some []) /\ mc m' = 0.
Proof.
  exists (mkmat 0 3 []). eexists. eexists. split; [split; cbn; lia|]. split; auto. split; [reflexivity|].
  split; [vm_compute; reflexivity|]. reflexivity.
Qed.

(** ** print_comma *)
Theorem print_comma_needs_an_entry :
  forall m : mat (T := Z), stored m -> (exists t, print_comma m = Some t) <-> 0 < mr m /\ 0 < mc m.
Proof.
  intros m [S1 S2]. split.
  - intros [t H]. unfold print_comma in H. destruct (mr m) as [|r'] eqn:ER; [discriminate|]. split; [lia|].
    destruct (mc m) as [|c'] eqn:EC; [|lia]. cbn [comma_row] in H.
    destruct (ofor _ _ _) as [x|] in H; discriminate.
  - intros [Hr Hc]. unfold print_comma.
    assert (CR : forall i, i < mr m -> exists t, comma_row (ms m) i (mc m) = Some t).
    { intros i Hi. unfold comma_row. destruct (mc m) as [|c'] eqn:EC; [lia|].
      match goal with |- context [ofor (seq 0 c') ?f ?s0] =>
        destruct (ofor_inv (fun _ _ => True) f c' 0 s0) as [p [E _]]; auto end.
      { intros j s Hj _. pose proof (S2 i j Hi ltac:(lia)). destruct (mget (ms m) i j); [cbn; eauto|congruence]. }
      rewrite E. cbn [obind]. pose proof (S2 i c' Hi ltac:(lia)). destruct (mget (ms m) i c'); [cbn; eauto|congruence]. }
    destruct (mr m) as [|r'] eqn:ER; [lia|].
    match goal with |- context [ofor (seq 0 r') ?f ?s0] =>
      destruct (ofor_inv (fun _ _ => True) f r' 0 s0) as [p [E _]]; auto end.
    { intros i s Hi _. destruct (CR i ltac:(lia)) as [t ->]. cbn. eauto. }
    rewrite E. cbn [obind]. destruct (CR r' ltac:(lia)) as [t ->]. cbn. eauto.
Qed.
Example ex_comma : print_comma ex_m = Some (txt "[[10, -7]," ++ [c_nl] ++ txt "[0, 123456789012345678901234567890]]" ++ [c_nl]).
Proof. vm_compute. reflexivity. Qed.

(** the text of print_comma is not accepted by the reader *)
Theorem print_comma_read_refuted :
  exists m t m', stored m /\ print_comma m = Some t /\ mread mat_empty t = Some (m', None).
Proof. exists ex_m. eexists. eexists. split; [exact ex_m_stored|]. split; [vm_compute; reflexivity|]. vm_compute. reflexivity. Qed.

Print Assumptions read_accepts_exactly_the_grammar.
Print Assumptions ill_formed_text_fails_consistently.
Print Assumptions failed_read_consistent_refuted.
Print Assumptions integer_at_end_of_stream_refuted.
Print Assumptions printed_integer_reads_back.
Print Assumptions print_then_read.
Print Assumptions print_then_read_empty_refuted.
Print Assumptions print_comma_needs_an_entry.
Print Assumptions print_comma_read_refuted.
