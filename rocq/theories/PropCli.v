(** C50 and C52: llldiff and the svp/cvp command. *)
From Coq Require Import Ascii String List ZArith Lia Arith Bool.
From Verif Require Import Util LatticeSpec NumVectModel MatrixModel MatrixProofs GsoModel GsoProofs LllModel WrapperModel WrapperProofs WrapperCalls PropWrapper CliModel.
Import ListNotations.
Local Open Scope nat_scope.

(** * C50 *)

Lemma ofor_app {S} l1 l2 (f : nat -> S -> option S) s : ofor (l1 ++ l2) f s = (t <- ofor l1 f s;; ofor l2 f t).
Proof. revert s. induction l1 as [|a l IH]; cbn [ofor app obind]; intros s; auto. destruct (f a s); cbn [obind]; auto. Qed.
Lemma list_all_eq (a b : list Z) : length a = length b -> (forall j, j < length a -> nth j a 0%Z = nth j b 0%Z) -> a = b.
Proof. intros L H. now apply nth_ext with (d := 0%Z) (d' := 0%Z). Qed.

(** an accumulating test: the flag at the end is the conjunction *)
Lemma ofor_test (f : nat -> bool -> option bool) (P : nat -> bool) l :
  (forall j t, In j l -> f j t = Some (if P j then t else false)) -> forall t, ofor l f t = Some (t && forallb P l).
Proof.
  induction l as [|a l IH]; intros H t; cbn [ofor forallb]; [now rewrite andb_true_r|].
  rewrite H by now left. cbn [obind]. rewrite IH by (intros; apply H; now right). f_equal. destruct (P a), t; reflexivity.
Qed.

Section Diff.
Variables (r c : nat) (B1 B2 : list (list Z)).
Hypothesis Hc : 1 <= c.
Hypothesis D1 : dims r c B1.
Hypothesis D2 : r <= length B2 /\ forall i, i < r -> c <= length (nth i B2 []).
Notation e1 i j := (nth j (nth i B1 []) 0%Z).
Notation e2 i j := (nth j (nth i B2 []) 0%Z).

Lemma get1 i j : i < r -> j < c -> mget B1 i j = Some (e1 i j).
Proof.
  intros Hi Hj. destruct D1 as [L R]. unfold mget. rewrite (nth_error_nth' _ [] (n := i)) by lia. cbn [obind].
  apply nth_error_nth'. rewrite R; lia.
Qed.
Lemma get2 i j : i < r -> j < c -> mget B2 i j = Some (e2 i j).
Proof.
  intros Hi Hj. destruct D2 as [L R]. unfold mget. rewrite (nth_error_nth' _ [] (n := i)) by lia. cbn [obind].
  apply nth_error_nth'. specialize (R i Hi). lia.
Qed.

(** the test made for one row *)
Definition row_test (i : nat) : bool :=
  ((Z.abs (e1 i 0) =? Z.abs (e2 i 0)) &&
   (if Bool.eqb (Z.abs (e1 i 0) =? e1 i 0) (Z.abs (e1 i 0) =? e2 i 0)
    then forallb (fun j => (e1 i j =? e2 i j)) (seq 1 (c - 1))
    else forallb (fun j => (- e1 i j =? e2 i j)) (seq 1 (c - 1))))%Z.
Lemma diff_row_ok i t : i < r -> diff_row B1 B2 c i t = Some (if row_test i then t else false).
Proof.
  intros Hi. unfold diff_row. rewrite get1, get2 by lia. cbn [obind]. unfold diff_tail.
  set (sg := if (Z.abs (e1 i 0) =? e2 i 0)%Z then _ else _).
  rewrite (ofor_test _ (fun j => if (sg =? 1)%Z then (e1 i j =? e2 i j)%Z else (- e1 i j =? e2 i j)%Z)).
  - f_equal. unfold row_test.
    assert (SG : (sg =? 1)%Z = Bool.eqb (Z.abs (e1 i 0) =? e1 i 0)%Z (Z.abs (e1 i 0) =? e2 i 0)%Z).
    { unfold sg. destruct (Z.abs (e1 i 0) =? e1 i 0)%Z, (Z.abs (e1 i 0) =? e2 i 0)%Z; reflexivity. }
    rewrite SG. destruct (Bool.eqb _ _); destruct (Z.abs (e1 i 0) =? Z.abs (e2 i 0))%Z, t; cbn [andb]; try reflexivity;
      destruct (forallb _ _); reflexivity.
  - intros j t' Hj. apply in_seq in Hj. rewrite get1, get2 by lia. cbn [obind]. f_equal.
    destruct (sg =? 1)%Z; auto. now rewrite <- Z.opp_eq_mul_m1.
Qed.
Lemma row_test_spec i : i < r -> row_test i = true <->
  (forall j, j < c -> e2 i j = e1 i j) \/ (e1 i 0 <> 0%Z /\ forall j, j < c -> e2 i j = (- e1 i j)%Z).
Proof.
  intros Hi. unfold row_test. rewrite andb_true_iff, Z.eqb_eq.
  assert (FA : forall P, forallb P (seq 1 (c - 1)) = true <-> forall j, 1 <= j < c -> P j = true).
  { intros P. rewrite forallb_forall. split; intros H j Hj; apply H; rewrite in_seq in *; lia. }
  destruct (Z.eqb_spec (Z.abs (e1 i 0)) (e1 i 0)) as [A|A], (Z.eqb_spec (Z.abs (e1 i 0)) (e2 i 0)) as [B|B]; cbn [Bool.eqb]; rewrite FA.
  - split.
    + intros [_ H]. left. intros [|j] Hj; [lia|]. specialize (H (S j) ltac:(lia)). apply Z.eqb_eq in H. auto.
    + intros [H|[H0 H]].
      * split; [rewrite H by lia; auto|]. intros j Hj. apply Z.eqb_eq. symmetry. apply H. lia.
      * exfalso. specialize (H 0 ltac:(lia)). lia.
  - split.
    + intros [E H]. right. split; [lia|]. intros [|j] Hj; [lia|]. specialize (H (S j) ltac:(lia)). apply Z.eqb_eq in H. auto.
    + intros [H|[H0 H]].
      * exfalso. specialize (H 0 ltac:(lia)). lia.
      * split; [rewrite H by lia; lia|]. intros j Hj. apply Z.eqb_eq. symmetry. apply H. lia.
  - split.
    + intros [E H]. right. split; [lia|]. intros [|j] Hj; [lia|]. specialize (H (S j) ltac:(lia)). apply Z.eqb_eq in H. auto.
    + intros [H|[H0 H]].
      * exfalso. specialize (H 0 ltac:(lia)). lia.
      * split; [rewrite H by lia; lia|]. intros j Hj. apply Z.eqb_eq. symmetry. apply H. lia.
  - split.
    + intros [E H]. left. intros [|j] Hj; [lia|]. specialize (H (S j) ltac:(lia)). apply Z.eqb_eq in H. auto.
    + intros [H|[H0 H]].
      * split; [rewrite H by lia; auto|]. intros j Hj. apply Z.eqb_eq. symmetry. apply H. lia.
      * exfalso. specialize (H 0 ltac:(lia)). lia.
Qed.
Lemma llldiff_run : llldiff B1 B2 c r = Some (forallb row_test (seq 0 r)).
Proof. unfold llldiff. rewrite (ofor_test _ row_test); auto. intros j t Hj. apply in_seq in Hj. apply diff_row_ok. lia. Qed.
End Diff.

(** For two r x c matrices, c >= 1: equal up to row signs, except that a row starting with 0 must be equal. *)
Theorem llldiff_exact r c B1 B2 : 1 <= c -> dims r c B1 -> dims r c B2 ->
  exists t, llldiff_main (mkmat B1 c) (mkmat B2 c) = Some t /\ (t = 0%Z \/ t = 1%Z) /\
    (t = 0%Z <-> forall i, i < r -> nth i B2 [] = nth i B1 [] \/ (nth 0 (nth i B1 []) 0%Z <> 0%Z /\ nth i B2 [] = map Z.opp (nth i B1 []))).
Proof.
  intros Hc H1 H2. unfold llldiff_main. cbn [m_rows m_cols]. pose proof H1 as [L1 R1]. rewrite L1.
  destruct H2 as [L2 R2].
  assert (D2 : r <= length B2 /\ forall i, i < r -> c <= length (nth i B2 [])) by (split; [lia|]; intros i Hi; rewrite R2; lia).
  rewrite (llldiff_run r c B1 B2 Hc H1 D2). cbn [obind]. eexists. split; [reflexivity|]. split; [destruct (forallb _ _); auto|].
  assert (FB : forallb (row_test c B1 B2) (seq 0 r) = true <-> forall i, i < r -> row_test c B1 B2 i = true).
  { rewrite forallb_forall. split; intros H i Hi; apply H; rewrite in_seq in *; lia. }
  assert (X : forall i, i < r -> (row_test c B1 B2 i = true <->
     nth i B2 [] = nth i B1 [] \/ (nth 0 (nth i B1 []) 0%Z <> 0%Z /\ nth i B2 [] = map Z.opp (nth i B1 [])))).
  { intros i Hi. rewrite (row_test_spec r c B1 B2 Hc D2 i Hi). split; (intros [H|[H0 H]]; [left|right; split; auto]).
    - apply list_all_eq; [rewrite R1, R2; auto|]. rewrite R2 by auto. auto.
    - apply list_all_eq; [rewrite map_length, R1, R2; auto|]. rewrite R2 by auto. intros j Hj. rewrite H by auto.
      change 0%Z with (- 0)%Z at 2. now rewrite map_nth.
    - intros j Hj. now rewrite H.
    - intros j Hj. rewrite H. change 0%Z with (- 0)%Z at 1. now rewrite map_nth. }
  split.
  - intros H i Hi. apply X; auto. apply FB; auto. destruct (forallb _ _); [auto|discriminate].
  - intros H. assert (FT : forallb (row_test c B1 B2) (seq 0 r) = true) by (apply FB; intros i Hi; apply X; auto). now rewrite FT.
Qed.

(** sound: "equal" only for bases equal up to row signs, hence with the same lattice *)
Corollary llldiff_sound r c B1 B2 : 1 <= c -> dims r c B1 -> dims r c B2 ->
  llldiff_main (mkmat B1 c) (mkmat B2 c) = Some 0%Z ->
  forall i, i < r -> nth i B2 [] = nth i B1 [] \/ nth i B2 [] = map Z.opp (nth i B1 []).
Proof.
  intros Hc H1 H2 H i Hi. destruct (llldiff_exact r c B1 B2 Hc H1 H2) as (t & E & _ & X). rewrite E in H. injection H as ->.
  destruct (proj1 X eq_refl i Hi) as [A|[_ A]]; auto.
Qed.
(** complete when no row of the first basis starts with 0 *)
Corollary llldiff_complete r c B1 B2 : 1 <= c -> dims r c B1 -> dims r c B2 -> (forall i, i < r -> nth 0 (nth i B1 []) 0%Z <> 0%Z) ->
  (forall i, i < r -> nth i B2 [] = nth i B1 [] \/ nth i B2 [] = map Z.opp (nth i B1 [])) ->
  llldiff_main (mkmat B1 c) (mkmat B2 c) = Some 0%Z.
Proof.
  intros Hc H1 H2 H0 H. destruct (llldiff_exact r c B1 B2 Hc H1 H2) as (t & E & _ & X). rewrite E. f_equal. apply X. intros i Hi.
  destruct (H i Hi) as [A|A]; auto.
Qed.
(** the claim itself is false: a row starting with 0 and its opposite are reported different *)
Theorem llldiff_zero_column_refuted : exists r c B1 B2, dims r c B1 /\ dims r c B2 /\
  (forall i, i < r -> nth i B2 [] = nth i B1 [] \/ nth i B2 [] = map Z.opp (nth i B1 [])) /\
  llldiff_main (mkmat B1 c) (mkmat B2 c) = Some 1%Z.
Proof.
  exists 2, 2, [[2; 1]; [0; 3]]%Z, [[-2; -1]; [0; -3]]%Z. split; [|split; [|split; [|reflexivity]]].
  - split; auto. intros [|[|i]] Hi; cbn; lia.
  - split; auto. intros [|[|i]] Hi; cbn; lia.
  - intros [|[|i]] Hi; [right; reflexivity|right; reflexivity|lia].
Qed.
(** the second matrix may have more rows and columns and still count as equal *)
Theorem llldiff_larger_refuted : exists B1 B2, dims 1 2 B1 /\ dims 2 3 B2 /\
  llldiff_main (mkmat B1 2) (mkmat B2 3) = Some 0%Z.
Proof.
  exists [[2; 1]]%Z, [[2; 1; 7]; [5; 5; 5]]%Z. split; [|split; [|reflexivity]]; split; auto; intros [|[|i]] Hi; cbn; lia.
Qed.
(** fewer rows or columns in the second matrix, or no columns: undefined *)
Theorem llldiff_shape_refuted : (exists B1 B2, dims 2 1 B1 /\ dims 1 1 B2 /\ llldiff_main (mkmat B1 1) (mkmat B2 1) = None) /\
  (exists B1 B2, dims 1 2 B1 /\ dims 1 1 B2 /\ llldiff_main (mkmat B1 2) (mkmat B2 1) = None) /\
  llldiff_main (mkmat [[]] 0) (mkmat [[]] 0) = None.
Proof.
  split; [|split; [|reflexivity]].
  - exists [[1]; [2]]%Z, [[1]]%Z. split; [|split; [|reflexivity]]; split; auto; intros [|[|i]] Hi; cbn; lia.
  - exists [[1; 2]]%Z, [[1]]%Z. split; [|split; [|reflexivity]]; split; auto; intros [|[|i]] Hi; cbn; lia.
Qed.
Example llldiff_ex : dims 3 3 [[1; 2; 3]; [-4; 5; 6]; [7; 0; -9]]%Z /\
  llldiff_main (mkmat [[1; 2; 3]; [-4; 5; 6]; [7; 0; -9]]%Z 3) (mkmat [[-1; -2; -3]; [4; -5; -6]; [7; 0; -9]]%Z 3) = Some 0%Z /\
  llldiff_main (mkmat [[1; 2; 3]; [-4; 5; 6]; [7; 0; -9]]%Z 3) (mkmat [[-1; -2; 3]; [4; -5; -6]; [7; 0; -9]]%Z 3) = Some 1%Z.
Proof. split; [|split; reflexivity]. split; auto. intros [|[|[|i]]] Hi; cbn; lia. Qed.

(** * C52 *)
(** the vector with coordinates x: sum of x_i b_i *)
Definition has_coords (n : nat) (b : list (list Z)) (x v : list Z) : Prop :=
  length v = n /\ forall j, j < n -> nth j v 0%Z = zsum (length b) (fun i => (nth i x 0 * ent b i j)%Z).

Lemma fold_zsum (g : nat -> Z) m : fold_left (fun a i => (a + g i)%Z) (seq 0 m) 0%Z = zsum m g.
Proof.
  induction m as [|m IH]; [reflexivity|]. rewrite seq_S, fold_left_app, IH. reflexivity.
Qed.
Lemma vmp_coords n b x v : vector_matrix_product n x b = Some v -> length x = length b /\ has_coords n b x v.
Proof.
  unfold vector_matrix_product. destruct (Nat.eqb_spec (length x) (length b)) as [E|]; [|discriminate]. intros H. injection H as <-.
  split; auto. split; [now rewrite map_length, seq_length|]. intros j Hj. rewrite (map_nth_lt _ _ _ 0) by (rewrite seq_length; auto).
  rewrite seq_nth by auto. cbn [Nat.add]. apply (fold_zsum (fun i => (nth i x 0 * ent b i j)%Z)).
Qed.
Lemma vmp_total n b x : length x = length b -> exists v, vector_matrix_product n x b = Some v.
Proof. intros E. unfold vector_matrix_product. rewrite E, Nat.eqb_refl. eauto. Qed.

Lemma zsum_nonzero m g : zsum m g <> 0%Z -> exists i, i < m /\ g i <> 0%Z.
Proof.
  induction m as [|m IH]; cbn [zsum]; intros H; [congruence|]. destruct (Z.eq_dec (g m) 0) as [E|E]; [|exists m; auto].
  destruct IH as (i & Hi & N); [lia|]. exists i. auto.
Qed.
Section Svp.
Variable envs : wcall -> nat -> env.
Variable little : Z -> Z -> bool.
Variable good_prec : Z.
Variable lg : nat -> nat -> Z.
Variable fuel : nat.
Variables (early siegel : bool) (zlong wld wqd wdpe : bool).
Variable ld_digits : Z.
Variable n : nat.
Notation lll := (lll_reduction_u envs little good_prec lg fuel early siegel zlong wld wqd wdpe ld_digits n (wdepth good_prec)).
Variable solve : list (list Z) -> option (list Z).
Variable b : list (list Z).
Hypothesis Hn : 1 <= n.
Hypothesis Hb : b <> [].
Hypothesis Hr : rect n b.
Hypothesis Hlg : (0 <= lg (length b) n)%Z.

(** the reduction keeps the lattice and leaves an empty u empty *)
Lemma lll_empty_u : exists b' u' x, lll b [] = Some (b', u', x) /\
  (forall st, x = ZStatus st -> u' = [] /\ length b' = length b /\ rect n b' /\ same_lattice n b b').
Proof.
  assert (Hd : 0 < length b) by (destruct b; [congruence|cbn; lia]).
  assert (HT : track b n b [] []) by (apply track_start; auto).
  destruct (z_ok envs little good_prec lg fuel early siegel zlong wld wqd wdpe ld_digits n None None 0 b [] [] Hn Hd Hlg HT)
    as [b' [u' [ui' [x [E [HX _]]]]]].
  unfold lll_reduction_u. cbn [emptyb length Nat.eqb]. rewrite E. cbn [obind fst snd]. exists b', u', x. split; auto.
  intros st Hst. destruct (HX st Hst) as [[T1 T2 T3 _ _] [L _]]. destruct u'; [auto|discriminate].
Qed.

(** "-of c" with LLL: once the reduction and the search have succeeded the program aborts, for every basis, every
    format containing c, every search answering with one coordinate per row. *)
Theorem svpcvp_coords_abort format : has_char "c" format = true ->
  (forall b' x, solve b' = Some x -> length x = length b') ->
  forall out, svpcvp lll solve n false (Some format) b <> CliRet out.
Proof.
  intros HF HS out. unfold svpcvp. destruct lll_empty_u as (b' & u' & x & -> & H).
  destruct x as [st| |w]; try discriminate. destruct (H st eq_refl) as (-> & LB & _).
  destruct st; try discriminate. destruct (solve b') as [x|] eqn:S; [|discriminate]. apply HS in S.
  rewrite HF. unfold vector_matrix_product at 1. cbn [length].
  assert (length b <> 0) by (destruct b; [congruence|cbn; lia]). destruct (Nat.eqb_spec (length x) 0); [lia|]. discriminate.
Qed.

(** without LLL: what is printed for c are the coordinates found for the input basis, for s the vector itself *)
Theorem svpcvp_no_lll_outputs format out : (forall x, solve b = Some x -> length x = length b) ->
  svpcvp lll solve n true (Some format) b = CliRet out ->
  exists x v, solve b = Some x /\ out = cli_print format x v /\ (has_char "s" format = true -> has_coords n b x v).
Proof.
  intros HS. unfold svpcvp. destruct (solve b) as [x|] eqn:S; [|discriminate]. specialize (HS x eq_refl).
  destruct (has_char "c" format) eqn:HC.
  - destruct (has_char "s" format) eqn:HSC.
    + destruct (vmp_total n b x HS) as [v V]. rewrite V. intros H. injection H as <-. exists x, v. split; auto. split; auto. intros _. now apply vmp_coords.
    + intros H. injection H as <-. exists x, []. split; auto. split; auto. discriminate.
  - assert (PC : forall c1 c2 v, has_char "c" format = false -> cli_print format c1 v = cli_print format c2 v).
    { clear. induction format as [|a t IH]; intros c1 c2 v H; [reflexivity|]. cbn [cli_print has_char] in *. apply orb_false_iff in H as [H1 H2]. rewrite H1.
      rewrite (IH c1 c2 v H2). reflexivity. }
    destruct (has_char "s" format) eqn:HSC.
    + destruct (vmp_total n b x HS) as [v V]. rewrite V. intros H. injection H as <-. exists x, v. split; auto. split; [now apply PC|]. intros _. now apply vmp_coords.
    + intros H. injection H as <-. exists x, []. split; auto. split; [now apply PC|]. discriminate.
Qed.

(** default format (and any without c) with LLL: the printed vector has the found coordinates in the reduced basis, hence
    lies in the lattice of the input; if the search returned a shortest vector of the reduced basis, it is a shortest
    vector of the input lattice. *)
Definition sqn (v : list Z) : Z := zsum n (fun j => (nth j v 0 * nth j v 0)%Z).
Theorem svpcvp_solution out : (forall b' x, solve b' = Some x -> length x = length b') ->
  svpcvp lll solve n false None b = CliRet out ->
  exists b' x v, same_lattice n b b' /\ solve b' = Some x /\ out = [OutVec v] /\ has_coords n b' x v /\ in_lattice n b v /\
    ((forall y w, length y = length b' -> (exists i, nth i y 0%Z <> 0%Z) -> has_coords n b' y w -> (sqn v <= sqn w)%Z) ->
     forall w, in_lattice n b w -> (exists j, nth j w 0%Z <> 0%Z) -> (sqn v <= sqn w)%Z).
Proof.
  intros HS. unfold svpcvp. destruct lll_empty_u as (b' & u' & x & -> & H).
  destruct x as [st| |w]; try discriminate. destruct (H st eq_refl) as (-> & LB & RB & SL).
  destruct st; try discriminate. destruct (solve b') as [x|] eqn:S; [|discriminate]. specialize (HS b' x S).
  destruct (vmp_total n b' x HS) as [v V]. cbn [has_char Ascii.eqb Bool.eqb orb]. rewrite V. intros HO. injection HO as <-.
  apply vmp_coords in V as [_ V]. exists b', x, v. split; auto. split; auto. split; [reflexivity|]. split; auto.
  assert (IV : in_lattice n b' v) by (split; [apply V|]; exists (fun i => nth i x 0%Z); apply V).
  split; [now apply SL|]. intros MIN w Hw [j Hj]. apply SL in Hw as [LW [c Hc]].
  apply (MIN (map c (seq 0 (length b'))) w).
  - now rewrite map_length, seq_length.
  - destruct (Nat.lt_ge_cases j n) as [LJ|LJ]; [|rewrite nth_overflow in Hj by lia; congruence].
    rewrite Hc in Hj by auto. destruct (zsum_nonzero (length b') (fun i => (c i * ent b' i j)%Z) Hj) as (i & Hi & HN).
    exists i. rewrite (map_nth_lt _ _ _ 0) by (rewrite seq_length; auto). rewrite seq_nth by auto. cbn [Nat.add]. intros Z0. apply HN. rewrite Z0. reflexivity.
  - split; auto. intros k Hk. rewrite Hc by auto. apply zsum_ext. intros i Hi.
    rewrite (map_nth_lt _ _ _ 0) by (rewrite seq_length; auto). rewrite seq_nth by auto. reflexivity.
Qed.
End Svp.

(** ** Refutation and examples: rows (1,0,1345), (0,1,35), numerically exact proved runs; the search answers with the first
    row of the reduced basis *)
Definition cli_b : list (list Z) := [[1; 0; 1345]; [0; 1; 35]]%Z.
Definition cli_lll := lll_reduction_u ex_envs (fun _ _ => false) 60 (fun _ _ => 3%Z) 50 false false true true true true 64 3 (wdepth 60).
Definition cli_solve (b : list (list Z)) : option (list Z) := Some (map (fun i => if i =? 0 then 1%Z else 0%Z) (seq 0 (length b))).
Theorem svpcvp_coords_refuted : exists b, svpcvp cli_lll cli_solve 3 false (Some "c"%string) b = CliAbort /\
  exists v, svpcvp cli_lll cli_solve 3 false (Some "s"%string) b = CliRet [OutVec v].
Proof. exists cli_b. split; [vm_compute; reflexivity|]. exists [0; 1; 35]%Z. vm_compute. reflexivity. Qed.
Example svpcvp_hyps : 1 <= 3 /\ cli_b <> [] /\ rect 3 cli_b /\ (forall b' x, cli_solve b' = Some x -> length x = length b') /\
  has_char "c" "cs"%string = true.
Proof.
  split; [lia|]. split; [discriminate|]. split; [intros [|[|i]] Hi; cbn in *; lia|]. split; [|reflexivity].
  intros b' x H. injection H as <-. now rewrite map_length, seq_length.
Qed.
Example svpcvp_no_lll_ex : svpcvp cli_lll cli_solve 3 true (Some "c s"%string) cli_b = CliRet [OutVec [1; 0]%Z; OutBlank; OutVec [1; 0; 1345]%Z].
Proof. vm_compute. reflexivity. Qed.
Example svpcvp_default_ex : svpcvp cli_lll cli_solve 3 false None cli_b = CliRet [OutVec [0; 1; 35]%Z].
Proof. vm_compute. reflexivity. Qed.

Print Assumptions llldiff_exact.
Print Assumptions llldiff_zero_column_refuted.
Print Assumptions svpcvp_coords_abort.
Print Assumptions svpcvp_coords_refuted.
Print Assumptions svpcvp_no_lll_outputs.
Print Assumptions svpcvp_solution.
