(** Storage of class Matrix (fplll/nr/matrix.h, matrix.cpp): the vector of rows
    may hold more rows than the matrix has, and rows of other sizes, left over
    from earlier sizes. *)
From Coq Require Import List ZArith Lia Arith Bool.
From Verif Require Import Util NumVectModel MatrixModel MatrixProofs.
Import ListNotations.
Local Open Scope nat_scope.

Ltac nb := repeat (match goal with
  | |- context[?a =? ?b] => destruct (Nat.eqb_spec a b)
  | |- context[?a <? ?b] => destruct (Nat.ltb_spec a b)
  | |- context[?a <=? ?b] => destruct (Nat.leb_spec a b)
  end; cbn [andb orb negb]; try (exfalso; lia)).

Section Store.
Context {T : Type}.
(** the value of a default-constructed element (0 for mpz_t, indeterminate for
    long): arbitrary *)
Variable d0 : T.

(** matrix.h:222-223 the data members r, c, matrix *)
Record mat := mkmat { mr : nat; mc : nat; ms : list (list T) }.

(** matrix.h:121 Matrix() *)
Definition mat_empty : mat := mkmat 0 0 [].

(** numvect.h:160 resize (vector::resize keeps the common prefix) *)
Definition vresize (n : nat) (v : list T) : list T := firstn n v ++ repeat d0 (n - length v).
(** numvect.h:190-194 extend *)
Definition vextend (n : nat) (v : list T) : list T := if length v <? n then vresize n v else v.

(** "for (i = lo; i < lo + cnt; i++) matrix[i] = f(matrix[i])": the loops of
    matrix.cpp:38-48, 98-101 *)
Definition rows_do (f : list T -> list T) (lo cnt : nat) (M : list (list T)) : option (list (list T)) :=
  ofor (seq lo cnt) (fun i M => row <- nth_error M i;; Some (upd M i (f row))) M.

(** matrix.cpp:26-52 resize; the rows of the last loop are independent, its
    order (downwards in the code) does not matter *)
Definition mresize (m : mat) (rows cols : nat) : option mat :=
  let old := length (ms m) in
  let M0 := if old <? rows then ms m ++ repeat [] (Nat.max (old * 2) rows - old) else ms m in
  M1 <- rows_do (vresize cols) (mr m) (rows - mr m) M0;;
  M2 <- (if cols =? mc m then Some M1 else rows_do (vresize cols) 0 (Nat.min (mr m) rows) M1);;
  Some (mkmat rows cols M2).

(** matrix.cpp:54-63 fill *)
Definition mfill (m : mat) (v : T) : option mat :=
  M <- ofor (seq 0 (mr m)) (fun i M => ofor (seq 0 (mc m)) (fun j M => mset M i j v) M) (ms m);;
  Some (mkmat (mr m) (mc m) M).

(** matrix.cpp:95-112 transpose *)
Definition mtranspose (m : mat) : option mat :=
  let r := mr m in let c := mc m in
  (* extend_vect(matrix, c), numvect.h:25-31 *)
  let M0 := if length (ms m) <? c then ms m ++ repeat [] (c - length (ms m)) else ms m in
  M1 <- rows_do (vextend r) 0 c M0;;
  M2 <- ofor (seq 0 (Nat.min r c)) (fun i M =>
          M' <- ofor (seq (S i) (Nat.max r c - S i)) (fun j M => mswap M i j j i) M;;
          if r <? c then row <- nth_error M' i;; Some (upd M' i (vresize r row)) else Some M') M1;;
  Some (mkmat c r M2).

(** matrix.h:158-162 m(i,j) = v; only called inside the matrix *)
Definition mput (m : mat) (i j : nat) (v : T) : option mat :=
  M <- mset (ms m) i j v;; Some (mkmat (mr m) (mc m) M).
(** matrix.h:183 swap_rows *)
Definition mswap_rows (m : mat) (i j : nat) : option mat :=
  M <- oswap (ms m) i j;; Some (mkmat (mr m) (mc m) M).

(** matrix.h:127-131 clear *)
Definition mclear (m : mat) : mat := mkmat 0 0 [].

(** the operations of a history; OZero: matrix.h:261-266 gen_zero with [v] for 0
    (NumVect::fill, numvect.h, writes every element of the stored row) *)
Inductive mop := OResize (rows cols : nat) | OPut (i j : nat) (v : T) | OFill (v : T) | OTranspose
  | OSwapRows (i j : nat) | OClear | OZero (d n : nat) (v : T).

(** matrix.h:261-266 gen_zero *)
Definition mzero (m : mat) (d n : nat) (v : T) : option mat :=
  m1 <- mresize m d n;;
  M <- rows_do (fun row => repeat v (length row)) 0 d (ms m1);;
  Some (mkmat (mr m1) (mc m1) M).

(** one operation of a history, by the definitions above *)
Definition mstep (m : mat) (o : mop) : option mat :=
  match o with
  | OResize rows cols => mresize m rows cols
  | OPut i j v => mput m i j v
  | OFill v => mfill m v
  | OTranspose => mtranspose m
  | OSwapRows i j => mswap_rows m i j
  | OClear => Some (mclear m)
  | OZero d n v => mzero m d n v
  end.
(** a history of operations on one object *)
Fixpoint mrun (m : mat) (l : list mop) : option mat :=
  match l with [] => Some m | o :: l' => m' <- mstep m o;; mrun m' l' end.

(** ** proofs *)

(** what the object must satisfy: every entry of the matrix is stored *)
Definition stored (m : mat) : Prop :=
  mr m <= length (ms m) /\ forall i j, i < mr m -> j < mc m -> mget (ms m) i j <> None.

Lemma vresize_length n v : length (vresize n v) = n.
Proof. unfold vresize. rewrite app_length, firstn_length, repeat_length. lia. Qed.

Lemma nth_error_repeat_lt (x : T) n k : k < n -> nth_error (repeat x n) k = Some x.
Proof. revert k. induction n; intros k H; [lia|]. destruct k; cbn; auto. apply IHn. lia. Qed.

Lemma vresize_nth n v k : nth_error (vresize n v) k =
  if k <? n then match nth_error v k with Some x => Some x | None => Some d0 end else None.
Proof.
  destruct (Nat.ltb_spec k n).
  - unfold vresize. destruct (nth_error v k) eqn:E.
    + assert (k < length v) by (apply nth_error_Some; congruence).
      rewrite nth_error_app1 by (rewrite firstn_length; lia).
      rewrite <- E. revert k v E H H0. induction n; intros k v E H H0; [lia|]. destruct v as [|y v]; [destruct k; discriminate|].
      destruct k; cbn; auto. apply IHn; cbn in *; auto; lia.
    + apply nth_error_None in E. rewrite nth_error_app2 by (rewrite firstn_length; lia).
      rewrite firstn_length. apply nth_error_repeat_lt. lia.
  - apply nth_error_None. rewrite vresize_length. lia.
Qed.

Lemma vextend_nth n v k : nth_error (vextend n v) k =
  match nth_error v k with Some x => Some x | None => if k <? n then Some d0 else None end.
Proof.
  unfold vextend. destruct (Nat.ltb_spec (length v) n).
  - rewrite vresize_nth. destruct (Nat.ltb_spec k n); auto.
    destruct (nth_error v k) eqn:E; auto. assert (k < length v) by (apply nth_error_Some; congruence). lia.
  - destruct (nth_error v k) eqn:E; auto. apply nth_error_None in E. destruct (Nat.ltb_spec k n); auto. lia.
Qed.

Lemma rows_do_spec f cnt : forall lo M, lo + cnt <= length M ->
  exists M', rows_do f lo cnt M = Some M' /\ length M' = length M /\
    forall a, nth_error M' a = if (lo <=? a) && (a <? lo + cnt) then option_map f (nth_error M a) else nth_error M a.
Proof.
  induction cnt; intros lo M H; unfold rows_do; cbn [seq ofor].
  - exists M. split; auto. split; auto. intros a. destruct (Nat.leb_spec lo a); cbn [andb]; auto.
    destruct (Nat.ltb_spec a (lo + 0)); auto. lia.
  - destruct (nth_error M lo) as [row|] eqn:E; [|apply nth_error_None in E; lia]. cbn [obind].
    destruct (IHcnt (S lo) (upd M lo (f row))) as [M' [E1 [L N]]]; [rewrite upd_length; lia|].
    unfold rows_do in E1. rewrite E1. exists M'. split; auto. rewrite upd_length in L. split; auto.
    intros a. rewrite N, nth_error_upd.
    destruct (Nat.leb_spec (S lo) a); destruct (Nat.leb_spec lo a); destruct (Nat.ltb_spec a (S lo + cnt));
    destruct (Nat.ltb_spec a (lo + S cnt)); destruct (Nat.eqb_spec a lo); cbn [andb]; try lia; auto;
    destruct (Nat.ltb_spec lo (length M)); cbn [andb]; try lia; auto; subst; rewrite E; auto.
Qed.

Lemma mget_nth M i j : mget M i j = match @nth_error (list T) M i with Some row => nth_error row j | None => None end.
Proof. reflexivity. Qed.

Lemma mset_get M i j x : mget M i j <> None ->
  exists M', mset M i j x = Some M' /\ length M' = length M /\
    forall a b, mget M' a b = if (a =? i) && (b =? j) then Some x else @mget T M a b.
Proof.
  unfold mset. rewrite mget_nth. destruct (nth_error M i) as [row|] eqn:E; [|congruence].
  destruct (nth_error row j) as [y|] eqn:E2; [|congruence]. intros _. cbn [obind]. rewrite E2. cbn [obind].
  eexists; split; [reflexivity|]. split; [apply upd_length|]. intros a b. rewrite !mget_nth, nth_error_upd.
  assert (i < length M) by (apply nth_error_Some; congruence).
  assert (j < length row) by (apply nth_error_Some; congruence).
  destruct (Nat.eqb_spec a i); cbn [andb]; auto. subst.
  destruct (Nat.ltb_spec i (length M)); [|lia]. rewrite nth_error_upd.
  destruct (Nat.eqb_spec b j); cbn [andb]; [|now rewrite E].
  subst. destruct (Nat.ltb_spec j (length row)); [auto|lia].
Qed.

Lemma mswap_get M i j k l : mget M i j <> None -> mget M k l <> None ->
  exists M', mswap M i j k l = Some M' /\ length M' = length M /\
    forall a b, mget M' a b =
      if (a =? k) && (b =? l) then @mget T M i j else if (a =? i) && (b =? j) then mget M k l else mget M a b.
Proof.
  intros H1 H2. unfold mswap. destruct (mget M i j) as [x|] eqn:E1; [|congruence].
  destruct (mget M k l) as [y|] eqn:E2; [|congruence]. cbn [obind].
  destruct (mset_get M i j y) as [M1 [F1 [L1 G1]]]; [congruence|]. rewrite F1. cbn [obind].
  destruct (mset_get M1 k l x) as [M2 [F2 [L2 G2]]].
  { rewrite G1. destruct (_ && _); congruence. }
  exists M2. split; auto. split; [lia|]. intros a b. rewrite G2, G1. auto.
Qed.

(** ** resize *)
Lemma mget_app_nil M n a b : @mget T (M ++ repeat [] n) a b = mget M a b.
Proof.
  rewrite !mget_nth. destruct (Nat.lt_ge_cases a (length M)).
  - rewrite nth_error_app1 by auto. auto.
  - rewrite nth_error_app2 by auto. rewrite (proj2 (nth_error_None M a)) by auto.
    destruct (nth_error (repeat [] n) (a - length M)) eqn:E; auto.
    apply nth_error_In, repeat_spec in E. subst. destruct b; auto.
Qed.

Lemma mresize_spec m rows cols : stored m ->
  exists m', mresize m rows cols = Some m' /\ stored m' /\ mr m' = rows /\ mc m' = cols /\
    (forall i j, i < rows -> j < cols -> i < mr m -> j < mc m -> mget (ms m') i j = mget (ms m) i j).
Proof.
  intros [H1 H2]. unfold mresize.
  set (M0 := if length (ms m) <? rows then _ else _).
  assert (L0 : rows <= length M0 /\ mr m <= length M0).
  { unfold M0. destruct (Nat.ltb_spec (length (ms m)) rows); [rewrite app_length, repeat_length|]; lia. }
  assert (G0 : forall a b, mget M0 a b = mget (ms m) a b).
  { intros. unfold M0. destruct (_ <? _); auto. apply mget_app_nil. }
  destruct (rows_do_spec (vresize cols) (rows - mr m) (mr m) M0) as [M1 [E1 [L1 N1]]]; [lia|].
  rewrite E1. cbn [obind].
  assert (E2 : exists M2, (if cols =? mc m then Some M1 else rows_do (vresize cols) 0 (Nat.min (mr m) rows) M1) = Some M2 /\
     length M2 = length M1 /\ forall a, nth_error M2 a =
       if negb (cols =? mc m) && (a <? Nat.min (mr m) rows) then option_map (vresize cols) (nth_error M1 a) else nth_error M1 a).
  { destruct (cols =? mc m); cbn [negb andb]; eauto.
    destruct (rows_do_spec (vresize cols) (Nat.min (mr m) rows) 0 M1) as [M2 [F1 [F2 F3]]]; [lia|]. eauto. }
  destruct E2 as [M2 [E2 [L2 N2]]]. rewrite E2. cbn [obind].
  eexists; split; [reflexivity|]. cbn [mr mc ms].
  assert (IN : forall a, a < rows -> exists row, nth_error M0 a = Some row).
  { intros a Ha. destruct (nth_error M0 a) eqn:E; eauto. apply nth_error_None in E. lia. }
  assert (ROW : forall a b, a < rows -> b < cols ->
     mget M2 a b = if (mr m <=? a) || negb (cols =? mc m)
                   then match mget M0 a b with Some x => Some x | None => Some d0 end else mget M0 a b).
  { intros a b Ha Hb. rewrite !mget_nth, N2, N1. destruct (IN a Ha) as [row Er]. rewrite Er.
    destruct (Nat.leb_spec (mr m) a); destruct (Nat.ltb_spec a (mr m + (rows - mr m)));
    destruct (Nat.ltb_spec a (Nat.min (mr m) rows)); destruct (cols =? mc m) eqn:EC; cbn [andb orb negb option_map]; try lia; auto;
    rewrite ?vresize_nth; destruct (Nat.ltb_spec b cols); try lia; auto. }
  split; [split; [cbn; lia|]|]; cbn [mr mc ms].
  - intros a b Ha Hb. rewrite ROW by auto. rewrite G0.
    destruct (Nat.leb_spec (mr m) a); cbn [orb]; [destruct (mget (ms m) a b); congruence|].
    destruct (Nat.eqb_spec cols (mc m)); cbn [negb]; [apply H2; lia|destruct (mget (ms m) a b); congruence].
  - split; auto. split; auto. intros a b Ha Hb Hm1 Hm2. rewrite ROW by auto. rewrite G0.
    pose proof (H2 a b Hm1 Hm2). destruct (_ || _); auto. destruct (mget (ms m) a b); congruence.
Qed.

(** ** transpose *)
Lemma mtranspose_spec m : stored m ->
  exists m', mtranspose m = Some m' /\ stored m' /\ mr m' = mc m /\ mc m' = mr m /\
    (forall i j, i < mc m -> j < mr m -> mget (ms m') i j = mget (ms m) j i).
Proof.
  intros [H1 H2]. unfold mtranspose. set (r := mr m) in *. set (c := mc m) in *.
  set (M0 := if length (ms m) <? c then _ else _).
  assert (L0 : c <= length M0 /\ r <= length M0).
  { unfold M0. destruct (Nat.ltb_spec (length (ms m)) c); [rewrite app_length, repeat_length|]; lia. }
  assert (G0 : forall a b, mget M0 a b = mget (ms m) a b).
  { intros. unfold M0. destruct (_ <? _); auto. apply mget_app_nil. }
  destruct (rows_do_spec (vextend r) c 0 M0) as [M1 [E1 [L1 N1]]]; [lia|]. rewrite E1. cbn [obind].
  assert (G1 : forall a b, (a < r -> b < c -> mget M1 a b = mget (ms m) a b) /\ (a < c -> b < r -> mget M1 a b <> None)
              /\ (a < r -> b < c -> mget M1 a b <> None)).
  { intros a b.
    assert (X : a < length M0 -> mget M1 a b = if a <? c then match mget (ms m) a b with Some x => Some x | None => if b <? r then Some d0 else None end
                  else mget (ms m) a b).
    { intros Ha. rewrite mget_nth, N1. cbn [Nat.leb andb Nat.add]. rewrite <- G0, mget_nth.
      destruct (nth_error M0 a) as [row|] eqn:Er; [|apply nth_error_None in Er; lia].
      destruct (a <? c); cbn [option_map]; auto. rewrite vextend_nth. auto. }
    repeat split; intros; rewrite X by lia; nb; try lia; try pose proof (H2 a b ltac:(auto) ltac:(auto));
      destruct (mget (ms m) a b); congruence. }
  set (mx := Nat.max r c). set (mn := Nat.min r c).
  set (G := fun i a b => if (r <? c) && (a <? i) && (r <=? b) then None
                         else if (Nat.min a b <? i) && (Nat.max a b <? mx) && negb (a =? b) then mget M1 b a else mget M1 a b).
  assert (DEF : forall a b, a < mn -> b < mx -> mget M1 a b <> None /\ mget M1 b a <> None).
  { intros a b Ha Hb. destruct (G1 a b) as [_ [A1 A2]]. destruct (G1 b a) as [_ [B1 B2]]. unfold mn, mx in *.
    destruct (Nat.le_gt_cases r c).
    - split; [apply A2; lia|apply B1; lia].
    - split; [apply A1; lia|apply B2; lia]. }
  edestruct (ofor_inv (fun i M => length M = length M1 /\ forall a b, mget M a b = G i a b))
    with (f := fun i M => M' <- ofor (seq (S i) (mx - S i)) (fun j M => mswap M i j j i) M;;
                 if r <? c then row <- nth_error M' i;; Some (upd M' i (vresize r row)) else Some M')
         (n := mn) (a := 0) (s := M1) as [M2 [E2 [L2 I2]]].
  - split; auto. intros a b. unfold G. nb; try lia; auto.
  - intros i M Hi [LM HM]. cbn beta.
    edestruct (ofor_inv (fun j M' => length M' = length M1 /\ forall a b, mget M' a b =
        if ((a =? i) && (i <? b) && (b <? j)) || ((b =? i) && (i <? a) && (a <? j)) then G i b a else G i a b))
      with (f := fun j (Q : list (list T)) => mswap Q i j j i) (n := mx - S i) (a := S i) (s := M) as [M' [E' [L' I']]].
    + split; auto. intros a b. rewrite HM. nb; try lia; auto.
    + intros j Mj Hj [Lj HMj]. destruct (DEF i j) as [D1 D2]; [lia|unfold mx in *; lia|].
      assert (V1 : mget Mj i j = mget M1 i j).
      { rewrite HMj. unfold G. nb; try lia; auto. }
      assert (V2 : mget Mj j i = mget M1 j i).
      { rewrite HMj. unfold G. nb; try lia; auto. }
      destruct (mswap_get Mj i j j i) as [Mk [Ek [Lk Gk]]]; [congruence|congruence|].
      exists Mk. split; auto. split; [lia|]. intros a b. rewrite Gk, V1, V2, HMj.
      assert (W1 : G i i j = mget M1 i j) by (unfold G; nb; try lia; auto).
      assert (W2 : G i j i = mget M1 j i) by (unfold G; nb; try lia; auto).
      destruct (Nat.eqb_spec a j); destruct (Nat.eqb_spec b i); destruct (Nat.eqb_spec a i); destruct (Nat.eqb_spec b j);
        subst; cbn [andb orb]; nb; try lia; auto.
    + rewrite E'. cbn [obind]. replace (S i + (mx - S i)) with mx in I' by (unfold mx, mn in *; lia).
      assert (STEP : forall a b, (if ((a =? i) && (i <? b) && (b <? mx)) || ((b =? i) && (i <? a) && (a <? mx)) then G i b a else G i a b)
         = if (a =? i) && (r <? c) && (r <=? b) then (if b <? mx then mget M1 b a else mget M1 a b) else G (S i) a b).
      { intros a b. unfold G, mx, mn in *. destruct (Nat.eqb_spec a i); destruct (Nat.eqb_spec b i); subst; cbn [andb orb negb];
        nb; try lia; auto. }
      destruct (Nat.ltb_spec r c) as [W|W].
      * destruct (nth_error M' i) as [row|] eqn:Er; [|apply nth_error_None in Er; unfold mn in *; lia].
        cbn [obind]. eexists; split; [reflexivity|]. split; [now rewrite upd_length|]. intros a b.
        rewrite mget_nth, nth_error_upd.
        assert (i < length M') by (apply nth_error_Some; congruence).
        destruct (Nat.eqb_spec a i) as [->|N]; cbn [andb].
        -- destruct (Nat.ltb_spec i (length M')); [|lia]. rewrite vresize_nth.
           assert (RB : nth_error row b = mget M' i b) by (rewrite mget_nth, Er; auto).
           rewrite RB, I', STEP, Nat.eqb_refl.
           destruct (Nat.ltb_spec r c); [|lia]. cbn [andb].
           destruct (Nat.ltb_spec b r); destruct (Nat.leb_spec r b); try lia.
           ++ destruct (G (S i) i b) eqn:EG; auto. exfalso. revert EG. unfold G.
              destruct (DEF i b) as [D1 D2]; [unfold mn in *; lia|unfold mx; lia|].
              nb; try lia; auto.
           ++ unfold G. nb; try lia; auto.
        -- fold (mget M' a b). change (match nth_error M' a with Some row0 => nth_error row0 b | None => None end) with (mget M' a b).
           rewrite I', STEP. destruct (Nat.eqb_spec a i); [lia|]. cbn [andb]. auto.
      * exists M'. split; auto. split; auto. intros a b. rewrite I', STEP.
        destruct (Nat.ltb_spec r c); [lia|]. rewrite andb_false_r. auto.
  - rewrite E2. cbn [obind]. eexists; split; [reflexivity|]. cbn [mr mc ms].
    assert (FIN : forall a b, a < c -> b < r -> mget M2 a b = mget (ms m) b a).
    { intros a b Ha Hb. rewrite I2. destruct (G1 b a) as [X _]. rewrite <- X by auto.
      unfold G, mx, mn. cbn [Nat.add]. nb; try lia; auto; subst; auto. }
    split; [split; cbn [mr mc ms]; [lia|]|auto]. intros a b Ha Hb. rewrite FIN by auto. apply H2; auto.
Qed.

End Store.
