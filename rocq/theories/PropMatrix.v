(** C40: resize, transpose and the storage of Matrix over all histories. *)
From Coq Require Import List ZArith Lia Arith Bool.
From Verif Require Import Util NumVectModel NumVectProofs RotateSpec MatrixModel MatrixProofs MatStore.
Import ListNotations.
Local Open Scope nat_scope.

(** ** Specification: dimensions and a partial table of entries; an entry that
    no operation has determined is [None] ("the value of new elements is
    undefined", matrix.h:134-135). *)
Section Spec.
Context {T : Type}.
Notation mat := (MatStore.mat (T := T)).
Notation mop := (MatStore.mop (T := T)).
Record view := mkview { ar : nat; ac : nat; af : nat -> nat -> option T }.
Definition vempty : view := mkview 0 0 (fun _ _ => None).
Definition in_view (v : view) (i j : nat) : bool := (i <? ar v) && (j <? ac v).
Definition vstep (v : view) (o : mop) : view :=
  match o with
  | OResize rows cols => mkview rows cols (fun i j => if in_view v i j then af v i j else None)
  | OPut i j x => mkview (ar v) (ac v) (fun a b => if (a =? i) && (b =? j) then Some x else af v a b)
  | OFill x => mkview (ar v) (ac v) (fun _ _ => Some x)
  | OTranspose => mkview (ac v) (ar v) (fun i j => af v j i)
  | OSwapRows i j => mkview (ar v) (ac v) (fun a b => af v (if a =? i then j else if a =? j then i else a) b)
  | OClear => vempty
  | OZero d n x => mkview d n (fun _ _ => Some x)
  end.
(** the accesses stay inside the matrix *)
Definition vlegal (v : view) (o : mop) : Prop :=
  match o with
  | OPut i j _ => i < ar v /\ j < ac v
  | OSwapRows i j => i < ar v /\ j < ar v
  | _ => True
  end.
Fixpoint vrun (v : view) (l : list mop) : view :=
  match l with [] => v | o :: l' => vrun (vstep v o) l' end.
Fixpoint vlegal_run (v : view) (l : list mop) : Prop :=
  match l with [] => True | o :: l' => vlegal v o /\ vlegal_run (vstep v o) l' end.

(** the object m shows the view v *)
Definition shows (m : mat) (v : view) : Prop :=
  mr m = ar v /\ mc m = ac v /\
  (forall i j, i < ar v -> j < ac v -> mget (ms m) i j <> None) /\
  (forall i j x, i < ar v -> j < ac v -> af v i j = Some x -> mget (ms m) i j = Some x).

Variable d0 : T.

Lemma mfill_spec (m : mat) (x : T) : stored m -> exists m', mfill m x = Some m' /\ stored m' /\ mr m' = mr m /\ mc m' = mc m /\
  forall i j, i < mr m -> j < mc m -> mget (ms m') i j = Some x.
Proof.
  intros [H1 H2]. unfold mfill.
  edestruct (ofor_inv (fun i (M : list (list T)) => length M = length (ms m) /\
     forall a b, mget M a b = if (a <? i) && (b <? mc m) then Some x else mget (ms m) a b))
    with (n := mr m) (a := 0) (s := ms m) (f := fun i (M : list (list T)) => ofor (seq 0 (mc m)) (fun j M => mset M i j x) M)
    as [M [E [L G]]].
  - split; auto.
  - intros i M Hi [LM GM]. cbn beta.
    edestruct (ofor_inv (fun j (Q : list (list T)) => length Q = length (ms m) /\
       forall a b, mget Q a b = if ((a <? i) && (b <? mc m)) || ((a =? i) && (b <? j)) then Some x else mget (ms m) a b))
      with (n := mc m) (a := 0) (s := M) (f := fun j (Q : list (list T)) => mset Q i j x) as [Q [E [L G]]].
    + split; auto. intros a b. rewrite GM. cbn [Nat.ltb Nat.leb]. rewrite andb_false_r, orb_false_r. auto.
    + intros j Q Hj [LQ GQ]. destruct (mset_get Q i j x) as [Q' [E' [L' G']]].
      { rewrite GQ. destruct (_ || _); [congruence|]. apply H2; lia. }
      exists Q'. split; auto. split; [lia|]. intros a b. rewrite G', GQ. nb; auto.
    + exists Q. split; auto. split; auto. intros a b. rewrite G. cbn [Nat.add]. nb; auto.
  - rewrite E. cbn [obind]. eexists; split; [reflexivity|]. cbn [mr mc ms].
    assert (F : forall i j, i < mr m -> j < mc m -> mget M i j = Some x).
    { intros i j Hi Hj. rewrite G. cbn [Nat.add]. nb; auto. }
    split; [split; cbn [mr mc ms]; [lia|]|auto]. intros i j Hi Hj. rewrite F by auto. congruence.
Qed.

Lemma step_shows (m : mat) v (o : mop) : stored m -> shows m v -> vlegal v o ->
  exists m', mstep d0 m o = Some m' /\ stored m' /\ shows m' (vstep v o).
Proof.
  intros HS [R [C [D V]]] HL. destruct o; cbn [mstep vstep vlegal] in *.
  - destruct (mresize_spec d0 m rows cols HS) as [m' [E [S' [R' [C' G]]]]]. exists m'. split; auto. split; auto.
    destruct S' as [S1 S2]. split; auto. split; auto. cbn [ar ac af]. split.
    + intros i j Hi Hj. apply S2; lia.
    + intros i j x Hi Hj. unfold in_view. destruct (Nat.ltb_spec i (ar v)); destruct (Nat.ltb_spec j (ac v)); cbn [andb]; try discriminate.
      intros Hx. rewrite G by lia. auto.
  - unfold mput. destruct (mset_get (ms m) i j v0) as [M [E [L G]]]; [apply D; tauto|].
    rewrite E. cbn [obind]. eexists; split; [reflexivity|]. destruct HS as [S1 S2]. split.
    + split; cbn [mr mc ms]; [lia|]. intros a b Ha Hb. rewrite G. destruct (_ && _); [congruence|auto].
    + split; auto. split; auto. cbn [ar ac af ms]. split.
      * intros a b Ha Hb. rewrite G. destruct (_ && _); [congruence|auto].
      * intros a b x Ha Hb. rewrite G. destruct (_ && _); auto.
  - destruct (mfill_spec m v0 HS) as [m' [E [S' [R' [C' G]]]]]. exists m'. split; auto. split; auto.
    split; [cbn; lia|]. split; [cbn; lia|]. cbn [ar ac af]. split.
    + intros i j Hi Hj. rewrite G by lia. congruence.
    + intros i j x Hi Hj [= <-]. apply G; lia.
  - destruct (mtranspose_spec d0 m HS) as [m' [E [S' [R' [C' G]]]]]. exists m'. split; auto. split; auto.
    split; [cbn; lia|]. split; [cbn; lia|]. cbn [ar ac af]. split.
    + intros i j Hi Hj. rewrite G by lia. apply D; lia.
    + intros i j x Hi Hj Hx. rewrite G by lia. auto.
  - unfold mswap_rows. destruct HS as [S1 S2]. destruct (oswap_some (ms m) i j) as [M [E R1]]; try lia.
    rewrite E. cbn [obind]. eexists; split; [reflexivity|].
    assert (N : forall a b, a < ar v -> mget M a b = mget (ms m) (if a =? i then j else if a =? j then i else a) b).
    { intros a b Ha. unfold mget. f_equal.
      assert (Q : tr i j a < length (ms m)) by (apply tr_lt; lia).
      assert (LM : length M = length (ms m)) by (destruct R1; lia).
      rewrite (nth_error_nth' M [] (n := a)) by lia.
      rewrite (reidx_nth _ _ _ [] a R1) by (auto; lia).
      rewrite <- (nth_error_nth' (ms m) []) by auto. reflexivity. }
    assert (LM : length M = length (ms m)) by (destruct R1; lia).
    assert (IDX : forall a, a < ar v -> (if a =? i then j else if a =? j then i else a) < ar v).
    { intros a Ha. nb; lia. }
    split; [split; cbn [mr mc ms]; [lia|]|split; [auto|split; [auto|split]]]; cbn [ar ac af ms].
    + intros a b Ha Hb. rewrite N by lia. apply D; [apply IDX; lia|lia].
    + intros a b Ha Hb. rewrite N by lia. apply D; [apply IDX; lia|lia].
    + intros a b x Ha Hb Hx. rewrite N by lia. apply V; auto.
  - eexists; split; [reflexivity|]. split; [split; cbn; lia|]. split; auto. split; auto. split; cbn; lia.
  - unfold mzero. destruct (mresize_spec d0 m d n HS) as [m1 [E1 [S' [R' [C' G]]]]]. rewrite E1. cbn [obind].
    destruct S' as [S1 S2].
    destruct (rows_do_spec (fun row : list T => repeat v0 (length row)) d 0 (ms m1)) as [M [E [L N]]]; [lia|].
    rewrite E. cbn [obind]. eexists; split; [reflexivity|].
    assert (F : forall a b, a < d -> b < n -> mget M a b = Some v0).
    { intros a b Ha Hb. unfold mget. rewrite N. cbn [Nat.leb andb Nat.add]. destruct (Nat.ltb_spec a d); [|lia].
      pose proof (S2 a b ltac:(lia) ltac:(lia)) as P. unfold mget in P.
      destruct (nth_error (ms m1) a) as [row|]; cbn [obind option_map] in *; [|congruence].
      apply nth_error_repeat_lt. apply nth_error_Some. auto. }
    rewrite R', C' in *.
    split; [split; cbn [mr mc ms]; [lia|]|split; [auto|split; [auto|split]]]; cbn [ar ac af ms].
    + intros a b Ha Hb. rewrite F by auto. congruence.
    + intros a b Ha Hb. rewrite F by auto. congruence.
    + intros a b x Ha Hb [= <-]. apply F; auto.
Qed.

(** * C40: after any history every determined entry has the value of the table;
    in particular kept entries keep their value and transpose transposes,
    whatever rows earlier sizes left behind. *)
Theorem matrix_history_keeps_contents :
  forall l, vlegal_run vempty l ->
    exists m, mrun d0 mat_empty l = Some m /\ shows m (vrun vempty l).
Proof.
  assert (H : forall (l : list (MatStore.mop (T := T))) (m : MatStore.mat (T := T)) v, stored m -> shows m v -> vlegal_run v l ->
     exists m', mrun d0 m l = Some m' /\ stored m' /\ shows m' (vrun v l)).
  { induction l as [|o l IH]; intros m v HS HV HL.
    - exists m. cbn. auto.
    - destruct HL as [L1 L2]. destruct (step_shows m v o HS HV L1) as [m1 [E [S1 V1]]].
      cbn [mrun vrun]. rewrite E. cbn [obind]. apply IH; auto. }
  intros l HL. destruct (H l mat_empty vempty) as [m [E [_ V]]]; auto.
  - split; cbn; lia.
  - split; auto. split; auto. split; cbn; lia.
  - exists m. auto.
Qed.
End Spec.

(** instance: shrinking, growing again and transposing twice *)
Definition ex_hist : list (mop (T := Z)) :=
  [OResize 2 3; OFill 7%Z; OPut 0 1 5%Z; OPut 1 2 9%Z; OTranspose; OResize 2 2; OResize 3 4; OPut 2 3 1%Z; OTranspose].
Example ex_hist_legal : vlegal_run vempty ex_hist.
Proof. cbn. lia. Qed.
Example ex_hist_run :
  mrun 0%Z mat_empty ex_hist =
    Some (mkmat 4 3 [[7; 5; 7]; [7; 7; 9]; [0; 0; 0]; [0; 0; 1]]%Z).
Proof. vm_compute. reflexivity. Qed.

(** ** What does not hold *)

(** newly exposed entries need not be the default: a row that was cut off comes
    back with its old contents *)
Theorem resize_new_entries_default_refuted :
  exists l rows cols m m' i j, mrun 0%Z mat_empty l = Some m /\
    mresize 0%Z m rows cols = Some m' /\ mr m <= i < rows /\ j < cols /\
    mget (ms m') i j = Some 5%Z.
Proof.
  exists [OResize 2 2; OFill 5%Z; OResize 1 2], 2, 2.
  eexists. eexists. exists 1, 0. split; [vm_compute; reflexivity|]. split; [vm_compute; reflexivity|].
  cbn. repeat split; auto; lia.
Qed.

(** the size of the stored rows: MatrixRow::size (matrix.h:44), is_zero and
    size_nz look at the whole stored row *)
Definition row_sizes_ok {T} (m : mat (T := T)) : Prop := forall i, i < mr m -> length (nth i (ms m) []) = mc m.

(** Histories without transpose keep the row sizes equal to get_cols() ... *)
Fixpoint no_transpose {T} (l : list (mop (T := T))) : Prop :=
  match l with [] => True | OTranspose :: _ => False | _ :: l' => no_transpose l' end.

Section Sizes.
Context {T : Type}.
Variable d0 : T.
Lemma rows_do_len f lo cnt (M : list (list T)) : lo + cnt <= length M ->
  exists M', rows_do f lo cnt M = Some M' /\ length M' = length M /\
    forall a, a < length M -> nth a M' [] = if (lo <=? a) && (a <? lo + cnt) then f (nth a M []) else nth a M [].
Proof.
  intros H. destruct (rows_do_spec f cnt lo M H) as [M' [E [L N]]]. exists M'. split; auto. split; auto.
  intros a Ha. specialize (N a). rewrite (nth_error_nth' M' []) in N by lia. rewrite (nth_error_nth' M []) in N by lia.
  destruct (_ && _); cbn in N; congruence.
Qed.

Lemma mset_len (M M' : list (list T)) i j x : mset M i j x = Some M' ->
  length M' = length M /\ forall a, length (nth a M' []) = length (nth a M []).
Proof.
  unfold mset. destruct (nth_error M i) as [row|] eqn:E; [|discriminate]. cbn [obind].
  destruct (nth_error row j); [|discriminate]. cbn [obind]. intros [= <-].
  split; [apply upd_length|]. intros a. rewrite nth_upd. destruct ((a =? i) && (i <? length M)) eqn:B; auto.
  apply andb_true_iff in B. destruct B as [B _]. apply Nat.eqb_eq in B. subst. rewrite upd_length.
  now rewrite (nth_error_nth M i [] E).
Qed.

Lemma ofor_len (P : list (list T) -> Prop) f : forall l (M M' : list (list T)), P M ->
  (forall k A B, P A -> f k A = Some B -> P B) -> ofor l f M = Some M' -> P M'.
Proof.
  induction l as [|k l IH]; intros M M' HP HS E; cbn [ofor] in E; [congruence|].
  destruct (f k M) as [M1|] eqn:E1; [|discriminate]. cbn [obind] in E. eapply IH; [|exact HS|exact E]. eauto.
Qed.

Lemma sizes_resize m m' rows cols : row_sizes_ok m -> stored m -> mresize d0 m rows cols = Some m' -> row_sizes_ok m'.
Proof.
  intros HR [H1 H2] E. unfold mresize in E.
  set (M0 := if length (ms m) <? rows then _ else _) in E.
  assert (L0 : rows <= length M0 /\ mr m <= length M0).
  { unfold M0. destruct (Nat.ltb_spec (length (ms m)) rows); [rewrite app_length, repeat_length|]; lia. }
  assert (N0 : forall a, a < mr m -> nth a M0 [] = nth a (ms m) []).
  { intros a Ha. unfold M0. destruct (_ <? _); auto. rewrite app_nth1 by lia. auto. }
  destruct (rows_do_len (vresize d0 cols) (mr m) (rows - mr m) M0) as [M1 [E1 [L1 N1]]]; [lia|].
  rewrite E1 in E. cbn [obind] in E.
  destruct (Nat.eqb_spec cols (mc m)).
  - injection E as <-. intros i Hi. cbn [mr mc ms] in *. rewrite N1 by lia.
    destruct (Nat.leb_spec (mr m) i); destruct (Nat.ltb_spec i (mr m + (rows - mr m))); cbn [andb]; try lia;
      try apply vresize_length. rewrite N0 by lia. rewrite HR by lia. auto.
  - destruct (rows_do_len (vresize d0 cols) 0 (Nat.min (mr m) rows) M1) as [M2 [E2 [L2 N2]]]; [lia|].
    rewrite E2 in E. cbn [obind] in E. injection E as <-. intros i Hi. cbn [mr mc ms] in *. rewrite N2, N1 by lia.
    destruct (Nat.leb_spec 0 i); destruct (Nat.ltb_spec i (0 + Nat.min (mr m) rows)); cbn [andb]; try apply vresize_length; try lia.
    destruct (Nat.leb_spec (mr m) i); destruct (Nat.ltb_spec i (mr m + (rows - mr m))); cbn [andb]; try apply vresize_length; lia.
Qed.

Theorem row_sizes_kept_without_transpose :
  forall l, no_transpose l -> vlegal_run vempty l ->
    exists m, mrun d0 mat_empty l = Some m /\ row_sizes_ok m.
Proof.
  assert (H : forall (l : list (MatStore.mop (T := T))) (m : MatStore.mat (T := T)) v, stored m -> shows m v -> row_sizes_ok m -> no_transpose l -> vlegal_run v l ->
     exists m', mrun d0 m l = Some m' /\ row_sizes_ok m').
  { induction l as [|o l IH]; intros m v HS HV HR HN HL.
    - exists m. cbn. auto.
    - destruct HL as [L1 L2]. destruct (step_shows d0 m v o HS HV L1) as [m1 [E [S1 V1]]].
      cbn [mrun]. rewrite E. cbn [obind]. apply (IH m1 (vstep v o)); auto; [|destruct o; cbn in HN; tauto].
      destruct o; cbn [mstep no_transpose vlegal] in *; try contradiction.
      + eapply sizes_resize; eauto.
      + unfold mput in E. destruct (mset (ms m) i j v0) as [M|] eqn:EM; [|discriminate]. injection E as <-.
        destruct (mset_len _ _ _ _ _ EM) as [L N]. intros a Ha. cbn [mr mc ms] in *. rewrite N. auto.
      + unfold mfill in E. destruct (ofor _ _ (ms m)) as [M|] eqn:EM; [|discriminate]. injection E as <-.
        assert (Q : forall a, a < mr m -> length (nth a M []) = mc m).
        { eapply (ofor_len (fun M => forall a, a < mr m -> length (nth a M []) = mc m)); [exact HR| |exact EM].
          intros k A B HA HB. eapply (ofor_len (fun M => forall a, a < mr m -> length (nth a M []) = mc m)); [exact HA| |exact HB].
          intros k' A' B' HA' HB' a' Ha'. destruct (mset_len _ _ _ _ _ HB') as [_ N]. rewrite N. auto. }
        exact Q.
      + unfold mswap_rows in E. destruct HS as [T1 T2]. destruct HV as [R [C _]].
        destruct (oswap_some (ms m) i j) as [M [EM R1]]; try lia. rewrite EM in E. injection E as <-.
        intros a Ha. cbn [mr mc ms] in *. rewrite (reidx_nth _ _ _ [] a R1) by (try apply tr_lt; lia).
        apply HR. apply tr_lt; lia.
      + injection E as <-. intros a Ha. cbn in Ha. lia.
      + unfold mzero in E. destruct (mresize d0 m d n) as [m2|] eqn:E2; [|discriminate]. cbn [obind] in E.
        pose proof (sizes_resize _ _ _ _ HR HS E2) as HR2.
        destruct (mresize_spec d0 m d n HS) as [m3 [E3 [[T1 _] [R3 [C3 _]]]]]. assert (m3 = m2) by congruence. subst m3.
        destruct (rows_do_len (fun row : list T => repeat v0 (length row)) 0 d (ms m2)) as [M [EM [L N]]]; [lia|].
        rewrite EM in E. injection E as <-. intros a Ha. cbn [mr mc ms] in *. rewrite N by lia.
        destruct (_ && _); rewrite ?repeat_length; auto. }
  intros l HN HL. apply (H l mat_empty vempty); auto.
  - split; cbn; lia.
  - split; auto. split; auto. split; cbn; lia.
  - intros i Hi. cbn in Hi. lia.
Qed.
End Sizes.

Example ex_no_transpose : no_transpose (T := Z) [OResize 2 3; OFill 7%Z; OResize 5 2; OZero 3 4 0%Z].
Proof. exact I. Qed.

(** ... transpose need not: the rows that the transposed matrix takes over from
    an earlier size are only extended, never cut; here row 2 of the 3 x 2 result
    has 4 elements, the last two left over from the 3 x 4 matrix *)
Theorem transpose_row_sizes_refuted :
  exists l m, vlegal_run (T := Z) vempty l /\ mrun 0%Z mat_empty l = Some m /\
    mr m = 3 /\ mc m = 2 /\ nth 2 (ms m) [] = [4; 4; 9; 9]%Z.
Proof.
  exists [OResize 3 4; OFill 9%Z; OResize 2 4; OResize 2 3; OFill 4%Z; OTranspose].
  eexists. split; [cbn; lia|]. split; [vm_compute; reflexivity|]. auto.
Qed.

Print Assumptions matrix_history_keeps_contents.
Print Assumptions resize_new_entries_default_refuted.
Print Assumptions row_sizes_kept_without_transpose.
Print Assumptions transpose_row_sizes_refuted.
