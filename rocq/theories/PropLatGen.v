(** C83: the program latticegen: documented command lines give matrices of the documented
    shape, nothing is read beyond argc; where README.md and the program differ. *)
From Coq Require Import Ascii String List ZArith Lia Arith Bool.
From Verif Require Import Util NumVectModel MatrixModel MatrixProofs MatStore PropMatrix GenModel GenProofs PropGen LatGenModel.
From Verif Require CmdModel IoModel IoProofs PropZnr.
Import ListNotations.
Local Open Scope Z_scope.

(** * Specification *)
(** the argument is the decimal numeral of an int *)
Definition int_num (s : string) (z : Z) : Prop := PropZnr.numeral (list_ascii_of_string s) z /\ - 2 ^ 31 <= z < 2 ^ 31.
(** the arguments before the method, and the seed they select *)
Inductive seeding : list string -> Prop :=
| seed_none : seeding []
| seed_time : seeding ["-randseed"%string; "time"%string]
| seed_num x z : PropZnr.numeral (list_ascii_of_string x) z -> - 2 ^ 63 <= z < 2 ^ 63 -> seeding ["-randseed"%string; x].

Section Spec.
Variable D : Type.
Variable atof : string -> D.
Variable powi : D -> Z -> option nat.
Variable set_str : string -> option Z.
Variable nextprime : Z -> Z.
Variable inp : nat -> Z.
(** the parameters b and c of the methods n, N, q and what they say about the modulus *)
Inductive modulus : bool -> string -> string -> (Z -> Prop) -> Prop :=
| mod_bits p sb b : int_num sb (Z.of_nat b) -> (0 < b)%nat -> modulus p sb "b" (fun q => 2 ^ (Z.of_nat b - 1) <= q < 2 ^ Z.of_nat b)
| mod_val p sb q : set_str sb = Some q -> 0 < q -> modulus p sb "q" (fun q' => q' = q)
| mod_prime sb b : int_num sb (Z.of_nat b) -> (0 < b)%nat ->
    modulus true sb "p" (fun q => exists q0, 2 ^ (Z.of_nat b - 1) <= q0 < 2 ^ Z.of_nat b /\ q = nextprime q0).
(** a command line (from the method on) and what the printed matrix is; further arguments
    are ignored *)
Inductive doc : list string -> (mat (T := Z) -> Prop) -> Prop :=
| doc_r sd sb rest d b : int_num sd (Z.of_nat d) -> int_num sb (Z.of_nat b) -> (1 <= d)%nat -> Z.of_nat d + 1 < 2 ^ 31 ->
    doc ("r"%string :: sd :: sb :: rest) (fun m => exists x, is_mat m d (d + 1) (fun i j => if (j =? 0)%nat then x i else kron j (i + 1) 1) /\
      (forall i, 0 <= x i < 2 ^ Z.of_nat b) /\ independent d (d + 1) (fun i j => if (j =? 0)%nat then x i else kron j (i + 1) 1))
| doc_s sd sb sb2 rest d b b2 : int_num sd (Z.of_nat d) -> int_num sb (Z.of_nat b) -> int_num sb2 (Z.of_nat b2) -> Z.of_nat d + 1 < 2 ^ 31 ->
    doc ("s"%string :: sd :: sb :: sb2 :: rest) (fun m => exists x,
      is_mat m (d + 1) (d + 1) (fun i j => if (i =? 0)%nat then (if (j =? 0)%nat then 2 ^ Z.of_nat b2 else x j) else kron i j (2 ^ Z.of_nat b)) /\
      (forall i, 0 <= x i < 2 ^ Z.of_nat b) /\
      zdet (d + 1) (fun i j => if (i =? 0)%nat then (if (j =? 0)%nat then 2 ^ Z.of_nat b2 else x j) else kron i j (2 ^ Z.of_nat b)) =
        2 ^ Z.of_nat b2 * (2 ^ Z.of_nat b) ^ Z.of_nat d)
| doc_u sd sb rest d b : int_num sd (Z.of_nat d) -> int_num sb (Z.of_nat b) -> (1 <= d)%nat ->
    doc ("u"%string :: sd :: sb :: rest) (fun m => exists x, is_mat m d d x /\ forall i j, 0 <= x i j < 2 ^ Z.of_nat b)
| doc_n sd sb c rest d Q : int_num sd (Z.of_nat d) -> (1 <= d)%nat -> 2 * Z.of_nat d < 2 ^ 31 -> modulus false sb c Q ->
    doc ("n"%string :: sd :: sb :: c :: rest) (fun m => exists q h, Q q /\ is_h h d q /\
      is_mat m (2 * d) (2 * d) (fun i j => if (i <? d)%nat then (if (j <? d)%nat then kron i j 1 else circ h d i (j - d))
                                          else (if (j <? d)%nat then 0 else kron i j q)))
| doc_N sd sb c rest d Q : int_num sd (Z.of_nat d) -> (1 <= d)%nat -> 2 * Z.of_nat d < 2 ^ 31 -> modulus false sb c Q ->
    doc ("N"%string :: sd :: sb :: c :: rest) (fun m => exists q h, Q q /\ is_h h d q /\
      is_mat m (2 * d) (2 * d) (fun i j => if (i <? d)%nat then kron i j q
                                          else (if (j <? d)%nat then circ h d j (i - d) else kron i j 1)))
| doc_q sd sk sb c rest d k Q : int_num sd (Z.of_nat d) -> int_num sk (Z.of_nat k) -> (1 <= d)%nat -> (k <= d)%nat -> modulus true sb c Q ->
    doc ("q"%string :: sd :: sk :: sb :: c :: rest) (fun m => exists q x, Q q /\
      is_mat m d d (fun i j => if (i <? d - k)%nat then (if (j <? d - k)%nat then kron i j 1 else x i j) else kron i j q) /\
      (forall i j, 0 <= x i j < q) /\
      zdet d (fun i j => if (i <? d - k)%nat then (if (j <? d - k)%nat then kron i j 1 else x i j) else kron i j q) = q ^ Z.of_nat k)
| doc_t sd f rest d bits : int_num sd (Z.of_nat d) -> (1 <= d)%nat -> 2 * Z.of_nat d < 2 ^ 31 ->
    (forall i, (i < d)%nat -> powi (atof f) (2 * Z.of_nat d - Z.of_nat i) = Some (bits i) /\ (0 < bits i)%nat) ->
    doc ("t"%string :: sd :: f :: rest) (fun m => exists a y, is_mat m d d (lower a y) /\
      (forall i, (i < d)%nat -> 2 <= a i <= 2 ^ Z.of_nat (bits i)) /\ (forall i j, (j < i < d)%nat -> 2 * Z.abs (y i j) < a j))
| doc_T sd rest d : int_num sd (Z.of_nat d) -> (1 <= d)%nat -> (forall i, (i < d)%nat -> 0 <= inp i) ->
    doc ("T"%string :: sd :: rest) (fun m => exists y, is_mat m d d (lower inp y) /\ forall i j, (j < i < d)%nat -> 2 * Z.abs (y i j) <= inp j).
End Spec.

(** * Proofs *)
Lemma digit_same c d : IoProofs.Digit c d -> CmdModel.digit_val c = Some d /\ CmdModel.is_space c = false /\ c <> "-"%char /\ c <> "+"%char.
Proof.
  intros [k [H ->]]. do 10 (destruct k; [cbn in H; injection H as <-; split; [reflexivity|split; [reflexivity|split; discriminate]]|]). destruct k; discriminate.
Qed.
Lemma decimal_read t n : IoProofs.Decimal t n -> forall tail, 
  CmdModel.read_digits 0 (string_of_list_ascii (t ++ tail)) = CmdModel.read_digits n (string_of_list_ascii tail).
Proof.
  induction 1 as [c d H|t n c d H IH Hd]; intros tail.
  - cbn [app string_of_list_ascii CmdModel.read_digits]. destruct (digit_same c d H) as [-> _]. reflexivity.
  - rewrite <- app_assoc. rewrite IH. cbn [app string_of_list_ascii CmdModel.read_digits]. destruct (digit_same c d Hd) as [-> _]. reflexivity.
Qed.
Lemma decimal_head t n : IoProofs.Decimal t n -> exists c r d, t = c :: r /\ IoProofs.Digit c d.
Proof. induction 1 as [c d H|t n c d H [c' [r [d' [-> IH]]]] Hd]; [exists c, [], d; auto|exists c', (r ++ [c])%list, d'; auto]. Qed.
Lemma text_int_numeral s z : PropZnr.numeral (list_ascii_of_string s) z -> CmdModel.text_int s = z.
Proof.
  intros H. rewrite <- (string_of_list_ascii_of_string s). destruct H as [t n H|t n H].
  - destruct (decimal_head t n H) as [c [r [d [E Hd]]]]. pose proof (decimal_read t n H []) as R. rewrite app_nil_r in R. cbn in R.
    subst t. unfold CmdModel.text_int. cbn [string_of_list_ascii CmdModel.skip_space] in *. destruct (digit_same c d Hd) as [_ [E2 [E3 E4]]]. rewrite E2.
    rewrite (proj2 (Ascii.eqb_neq c "-") E3), (proj2 (Ascii.eqb_neq c "+") E4). exact R.
  - pose proof (decimal_read t n H []) as R. rewrite app_nil_r in R. cbn in R.
    unfold CmdModel.text_int. cbn [string_of_list_ascii CmdModel.skip_space]. change (CmdModel.is_space "-") with false. cbv iota. rewrite Ascii.eqb_refl. now rewrite R.
Qed.
Lemma int_num_atoi s z : int_num s z -> CmdModel.atoi s = Some z.
Proof.
  intros [H [H1 H2]]. unfold CmdModel.atoi. rewrite (text_int_numeral s z H). apply Z.leb_le in H1. apply Z.ltb_lt in H2. now rewrite H1, H2.
Qed.
Lemma fresh_ok r c : (1 <= r)%nat -> (1 <= c)%nat ->
  exists m, fresh_mat (Z.of_nat r) (Z.of_nat c) = Some m /\ stored m /\ mr m = r /\ mc m = c /\
    forall i j, (i < r)%nat -> (j < c)%nat -> mget (ms m) i j = Some 0.
Proof.
  intros Hr Hc. unfold fresh_mat. replace ((Z.of_nat r <=? 0) || (Z.of_nat c <=? 0)) with false by (symmetry; apply orb_false_intro; apply Z.leb_gt; lia).
  rewrite !Nat2Z.id. unfold mresize. cbn [mat_empty ms mr mc length]. rewrite (proj2 (Nat.ltb_lt 0 r)) by lia.
  rewrite Nat.sub_0_r, Nat.mul_0_l, Nat.max_0_l, Nat.sub_0_r. cbn [app].
  destruct (rows_do_spec (vresize 0%Z c) r 0 (repeat [] r)) as [M [E [L N]]]; [rewrite repeat_length; lia|]. rewrite E. cbn [obind].
  rewrite (proj2 (Nat.eqb_neq c 0)) by lia. cbn [Nat.min rows_do seq ofor obind]. eexists. split; [reflexivity|].
  assert (G : forall i j, (i < r)%nat -> (j < c)%nat -> mget M i j = Some 0).
  { intros i j Hi Hj. unfold mget. rewrite N. cbn [Nat.leb andb]. rewrite Nat.add_0_l, (proj2 (Nat.ltb_lt i r) Hi).
    rewrite (nth_error_nth' _ []) by (rewrite repeat_length; lia). cbn [option_map obind].
    rewrite (nth_repeat []). unfold vresize. rewrite firstn_nil, Nat.sub_0_r. cbn [app].
    rewrite (nth_error_nth' _ 0) by (rewrite repeat_length; lia). now rewrite nth_repeat. }
  cbn [mr mc ms]. split; [|auto]. split; cbn [mr mc ms]; [rewrite L, repeat_length; lia|]. intros i j Hi Hj. rewrite G; auto. discriminate.
Qed.

Lemma time_not_numeral z : ~ PropZnr.numeral (list_ascii_of_string "time") z.
Proof.
  intros H. inversion H as [t n HD E1 E2|t n HD E1 E2]. destruct (decimal_head _ _ HD) as [c [r [d [E Hd]]]]. cbn in E. injection E as <- _.
  destruct (digit_same _ _ Hd) as [X _]. discriminate X.
Qed.

Section Proofs.
Variable D : Type.
Variable atof : string -> D.
Variable powi : D -> Z -> option nat.
Variable set_str : string -> option Z.
Variable nextprime : Z -> Z.
Variable rnd : seed -> nat -> nat -> Z.
Variable rq : seed -> Z.
Variable sgn : seed -> nat -> nat -> bool.
Variable inp : nat -> Z.
Notation latgen := (latticegen D atof powi set_str nextprime rnd rq sgn inp).
Notation gen := (generate D atof powi set_str nextprime rnd rq sgn inp).
Notation fromm := (from_method D atof powi set_str nextprime rnd rq sgn inp).
Notation doc' := (doc D atof powi set_str nextprime inp).

Lemma is_int_ok z : - 2 ^ 31 <= z < 2 ^ 31 -> is_int z = true.
Proof. intros [H1 H2]. unfold is_int. apply andb_true_intro. split; [apply Z.leb_le|apply Z.ltb_lt]; auto. Qed.
Lemma resized_ok r c k : (1 <= r)%nat -> (1 <= c)%nat -> Z.of_nat r < 2 ^ 31 -> Z.of_nat c < 2 ^ 31 ->
  exists m, stored m /\ mr m = r /\ mc m = c /\ (forall i j, (i < r)%nat -> (j < c)%nat -> mget (ms m) i j = Some 0) /\
    resized (Z.of_nat r) (Z.of_nat c) k = k m.
Proof.
  intros Hr Hc Br Bc. destruct (fresh_ok r c Hr Hc) as [m [E [S1 [S2 [S3 S4]]]]]. exists m. repeat (split; auto).
  unfold resized. rewrite !is_int_ok by lia. cbn [andb]. now rewrite E.
Qed.
Lemma the_q_ok p s sb c Q k : (forall x, 0 < x -> x < nextprime x) -> modulus set_str nextprime p sb c Q ->
  exists q, Q q /\ 0 < q /\ the_q set_str nextprime rq p s (first_char c) sb k = k q.
Proof.
  intros HP. destruct 1 as [p sb b H Hb|p sb q H Hq|sb b H Hb].
  - exists (q_of_bits rq s (Z.of_nat b)). unfold q_of_bits. rewrite Nat2Z.id. pose proof (gen_q_range b (rq s) Hb) as R.
    replace (Z.of_nat (b - 1)) with (Z.of_nat b - 1) in R by lia. assert (0 < 2 ^ (Z.of_nat b - 1)) by (apply Z.pow_pos_nonneg; lia).
    split; [lia|]. split; [lia|]. unfold the_q. cbn [first_char]. change (Ascii.eqb "b" "b") with true. cbv iota. rewrite (int_num_atoi _ _ H).
    rewrite (proj2 (Z.leb_gt (Z.of_nat b) 0)) by lia. unfold q_of_bits. now rewrite Nat2Z.id.
  - exists q. split; auto. split; auto. unfold the_q. cbn [first_char]. change (Ascii.eqb "q" "b") with false. change (Ascii.eqb "q" "q") with true. cbv iota.
    rewrite H. now rewrite (proj2 (Z.leb_gt q 0)) by lia.
  - pose proof (gen_q_range b (rq s) Hb) as R. replace (Z.of_nat (b - 1)) with (Z.of_nat b - 1) in R by lia.
    assert (0 < 2 ^ (Z.of_nat b - 1)) by (apply Z.pow_pos_nonneg; lia).
    exists (nextprime (q_of_bits rq s (Z.of_nat b))). unfold q_of_bits. rewrite Nat2Z.id.
    split; [exists (gen_q b (rq s)); split; [lia|auto]|]. pose proof (HP (gen_q b (rq s)) ltac:(lia)). split; [lia|].
    unfold the_q. cbn [first_char]. change (Ascii.eqb "p" "b") with false. change (Ascii.eqb "p" "q") with false. change (Ascii.eqb "p" "p") with true. cbn [andb]. cbv iota.
    rewrite (int_num_atoi _ _ H). rewrite (proj2 (Z.leb_gt (Z.of_nat b) 0)) by lia. unfold q_of_bits. now rewrite Nat2Z.id.
Qed.

Lemma from_ok s args P : (forall x, 0 < x -> x < nextprime x) -> doc' args P -> exists m, fromm s args = LDone m /\ P m.
Proof.
  intros HP H. destruct H as [sd sb rest d b H1 H2 H3 H4|sd sb sb2 rest d b b2 H1 H2 H3 H4|sd sb rest d b H1 H2 H3
    |sd sb c rest d Q H1 H2 H3 H4|sd sb c rest d Q H1 H2 H3 H4|sd sk sb c rest d k Q H1 H2 H3 H4 H5|sd f rest d bits H1 H2 H3 H4|sd rest d H1 H2 H3];
    unfold from_method, arg, num; cbn [length Nat.ltb Nat.leb nth_error skipn]; rewrite (int_num_atoi _ _ H1); cbn [first_char];
    pose proof (proj2 H1) as B1; unfold generate; cbn [Ascii.eqb Bool.eqb length Nat.ltb Nat.leb]; unfold num, arg; cbn [nth_error].
  - rewrite (int_num_atoi _ _ H2). replace (Z.of_nat d + 1) with (Z.of_nat (d + 1)) by lia.
    match goal with |- context [resized _ _ ?k] => destruct (resized_ok d (d + 1) k) as [m [S1 [S2 [S3 [_ ->]]]]]; try lia end.
    rewrite (proj2 (Z.ltb_ge (Z.of_nat b) 0)) by lia. rewrite andb_false_r, (proj2 (Z.ltb_ge (Z.of_nat d) 0)) by lia.
    rewrite (proj2 (Z.eqb_neq (Z.of_nat d) 0)) by lia. rewrite Nat2Z.id.
    destruct (gen_intrel_shape (rnd s) m b S1 ltac:(lia)) as [m' [x [-> [_ [R1 [R2 R3]]]]]]. exists m'. split; auto. exists x. rewrite S2 in *. auto.
  - rewrite (int_num_atoi _ _ H2), (int_num_atoi _ _ H3). replace (Z.of_nat d + 1) with (Z.of_nat (d + 1)) by lia.
    match goal with |- context [resized _ _ ?k] => destruct (resized_ok (d + 1) (d + 1) k) as [m [S1 [S2 [S3 [S4 ->]]]]]; try lia end.
    unfold simdioph. rewrite (proj2 (Z.ltb_ge (Z.of_nat b) 0)) by lia. rewrite andb_false_r, (proj2 (Z.ltb_ge (Z.of_nat b2) 0)), !Nat2Z.id by lia.
    destruct (gen_simdioph_shape (rnd s) m b b2 S1 ltac:(lia) ltac:(lia)) as [m' [x [-> [_ [R1 [R2 R3]]]]]]; [intros i Hi; apply S4; lia|].
    exists m'. split; auto. exists x. rewrite S2 in *. replace (d + 1 - 1)%nat with d in R3 by lia. auto.
  - rewrite (int_num_atoi _ _ H2).
    match goal with |- context [resized _ _ ?k] => destruct (resized_ok d d k) as [m [S1 [S2 [S3 [S4 ->]]]]]; try lia end.
    rewrite (proj2 (Z.ltb_ge (Z.of_nat b) 0)) by lia. rewrite andb_false_r, Nat2Z.id.
    destruct (gen_uniform_shape (rnd s) m b S1 ltac:(lia)) as [m' [x [-> [_ [R1 R2]]]]]. exists m'. split; auto. exists x. rewrite S2 in *. auto.
  - replace (2 * Z.of_nat d) with (Z.of_nat (2 * d)) in * by lia.
    match goal with |- context [resized _ _ ?k] => destruct (resized_ok (2 * d) (2 * d) k) as [m [S1 [S2 [S3 [S4 ->]]]]]; try lia end.
    match goal with |- context [the_q _ _ _ _ _ _ _ ?k] => destruct (the_q_ok false s sb c Q k HP H4) as [q [Q1 [Q2 ->]]] end.
    unfold ntru. rewrite (proj2 (Z.ltb_ge (Z.of_nat d) 0)) by lia.
    destruct (gen_ntrulike_shape (rnd s) m d q S1 S2 S3 ltac:(lia) Q2) as [m' [h [-> [_ [R1 [R2 _]]]]]]. exists m'. split; auto. exists q, h. auto.
  - replace (2 * Z.of_nat d) with (Z.of_nat (2 * d)) in * by lia.
    match goal with |- context [resized _ _ ?k] => destruct (resized_ok (2 * d) (2 * d) k) as [m [S1 [S2 [S3 [S4 ->]]]]]; try lia end.
    match goal with |- context [the_q _ _ _ _ _ _ _ ?k] => destruct (the_q_ok false s sb c Q k HP H4) as [q [Q1 [Q2 ->]]] end.
    unfold ntru. rewrite (proj2 (Z.ltb_ge (Z.of_nat d) 0)) by lia.
    destruct (gen_ntrulike2_shape (rnd s) m d q S1 S2 S3 ltac:(lia) Q2) as [m' [h [-> [_ [R1 [R2 _]]]]]]. exists m'. split; auto. exists q, h. auto.
  - rewrite (int_num_atoi _ _ H2).
    match goal with |- context [resized _ _ ?k] => destruct (resized_ok d d k) as [m [S1 [S2 [S3 [S4 ->]]]]]; try lia end.
    match goal with |- context [the_q _ _ _ _ _ _ _ ?k] => destruct (the_q_ok true s sb c Q k HP H5) as [q [Q1 [Q2 ->]]] end.
    unfold qary. rewrite (proj2 (Z.leb_le 0 (Z.of_nat d))) by lia. rewrite is_int_ok by lia. cbn [negb].
    destruct (gen_qary_shape (rnd s) m k q S1 ltac:(lia) ltac:(lia) Q2) as [m' [x [-> [_ [R1 [R2 R3]]]]]]. exists m'. split; auto. exists q, x. rewrite S2 in *. auto.
  - match goal with |- context [resized _ _ ?k] => destruct (resized_ok d d k) as [m [S1 [S2 [S3 [S4 ->]]]]]; try lia end.
    unfold trg. cbv zeta. rewrite S2. rewrite is_int_ok by lia. rewrite andb_true_r.
    replace (forallb _ (seq 0 d)) with true.
    2:{ symmetry. apply forallb_forall. intros i Hi. apply in_seq in Hi. destruct (H4 i ltac:(lia)) as [-> _]. reflexivity. }
    match goal with |- context [gen_trg _ _ _ ?b] => destruct (gen_trg_shape (rnd s) (sgn s) m b S1 ltac:(lia)) as [m' [a [y [-> [_ [R1 [R2 [R3 _]]]]]]]] end.
    { intros i Hi. destruct (H4 i ltac:(lia)) as [-> ?]. auto. }
    exists m'. split; auto. exists a, y. rewrite S2 in *. split; auto. split; auto. intros i Hi. specialize (R2 i Hi). destruct (H4 i Hi) as [E _]. rewrite E in R2. auto.
  - rewrite (proj2 (Z.ltb_ge (Z.of_nat d) 0)) by lia.
    match goal with |- context [resized _ _ ?k] => destruct (resized_ok d d k) as [m [S1 [S2 [S3 [S4 ->]]]]]; try lia end.
    destruct (gen_trg2_shape (rnd s) (sgn s) m inp S1 ltac:(lia)) as [m' [y [-> [_ [R1 [R2 _]]]]]]; [intros i Hi; apply H3; lia|].
    exists m'. split; auto. exists y. rewrite S2 in *. auto.
Qed.

(** a documented command line, with or without -randseed: the program prints a matrix of
    the stated shape, for all random numbers *)
Theorem latticegen_documented :
  (forall x, 0 < x -> x < nextprime x) ->
  forall pre args P, seeding pre -> doc' args P -> exists m, latgen (pre ++ args) = LDone m /\ P m.
Proof.
  intros HP pre args P Hs Hd. destruct Hs as [| |x z Hx Bx].
  - cbn [app]. destruct (from_ok SDefault args P HP Hd) as [m [E Pm]]. exists m. split; auto. rewrite <- E. destruct Hd; reflexivity.
  - exact (from_ok STime args P HP Hd).
  - destruct (from_ok (SSeed (u64 z)) args P HP Hd) as [m [E Pm]]. exists m. split; auto. rewrite <- E. cbn [app latticegen].
    change (String.eqb "-randseed" "--help") with false. change (String.eqb "-randseed" "--version") with false. change (String.eqb "-randseed" "-randseed") with true. cbv iota.
    destruct (String.eqb_spec x "time") as [->|_].
    { exfalso. exact (time_not_numeral z Hx). }
    unfold atol. rewrite (text_int_numeral x z Hx). rewrite (proj2 (Z.leb_le _ _) (proj1 Bx)), (proj2 (Z.ltb_lt _ _) (proj2 Bx)). reflexivity.
Qed.

(** nothing beyond argc is read *)
Theorem latticegen_no_overread : forall args, latgen args <> LOver.
Proof.
  assert (Q : forall p s c sb k, (forall q, k q <> LOver) -> the_q set_str nextprime rq p s c sb k <> LOver).
  { intros p s c sb k Hk. unfold the_q. destruct (Ascii.eqb c "b").
    - destruct (CmdModel.atoi sb) as [z|]; [|discriminate]. destruct (z <=? 0); [discriminate|auto].
    - destruct (Ascii.eqb c "q"); [destruct (set_str sb) as [z|]; [|discriminate]; destruct (z <=? 0); [discriminate|auto]|].
      destruct (p && Ascii.eqb c "p"); [|discriminate]. destruct (CmdModel.atoi sb) as [z|]; [|discriminate]. destruct (z <=? 0); [discriminate|auto]. }
  assert (O : forall g, out g <> LOver) by (destruct g; discriminate).
  assert (R : forall r c k, (forall m, k m <> LOver) -> resized r c k <> LOver).
  { intros r c k Hk. unfold resized. destruct (is_int r && is_int c); [|discriminate]. destruct (fresh_mat r c); [auto|discriminate]. }
  assert (N : forall args i k, (i < length args)%nat -> (forall z, k z <> LOver) -> num args i k <> LOver).
  { intros args i k Hi Hk. unfold num. destruct (nth_error args i) eqn:E; [|apply nth_error_None in E; lia]. destruct (CmdModel.atoi s); [auto|discriminate]. }
  assert (A : forall args i k, (i < length args)%nat -> (forall z, k z <> LOver) -> arg args i k <> LOver).
  { intros args i k Hi Hk. unfold arg. destruct (nth_error args i) eqn:E; [auto|apply nth_error_None in E; lia]. }
  assert (G : forall s c d args, gen s c d args <> LOver).
  { intros s c d args. unfold generate.
    destruct (Ascii.eqb c "r"). { destruct (Nat.ltb_spec (length args) 1); [discriminate|]. apply N; [lia|]. intros b. apply R. intros m.
      destruct ((1 <=? d) && (b <? 0)); [discriminate|]. destruct (d <? 0); [discriminate|]. destruct (d =? 0); [discriminate|auto]. }
    destruct (Ascii.eqb c "s"). { destruct (Nat.ltb_spec (length args) 2); [discriminate|]. apply N; [lia|]. intros b. apply N; [lia|]. intros b2. apply R. intros m.
      unfold simdioph. destruct ((2 <=? mr m)%nat && (b <? 0)); [discriminate|]. destruct (gen_simdioph _ _ _ _); [discriminate|discriminate|].
      destruct (b2 <? 0); [|discriminate]. destruct (mset _ _ _ _); discriminate. }
    destruct (Ascii.eqb c "u"). { destruct (Nat.ltb_spec (length args) 1); [discriminate|]. apply N; [lia|]. intros b. apply R. intros m.
      destruct ((1 <=? d) && (b <? 0)); [discriminate|auto]. }
    destruct (Ascii.eqb c "n"). { destruct (Nat.ltb_spec (length args) 2); [discriminate|]. apply A; [lia|]. intros x. apply R. intros m. apply A; [lia|]. intros sb.
      apply Q. intros q. unfold ntru. destruct (d <? 0); [discriminate|auto]. }
    destruct (Ascii.eqb c "N"). { destruct (Nat.ltb_spec (length args) 2); [discriminate|]. apply A; [lia|]. intros x. apply R. intros m. apply A; [lia|]. intros sb.
      apply Q. intros q. unfold ntru. destruct (d <? 0); [discriminate|auto]. }
    destruct (Ascii.eqb c "q"). { destruct (Nat.ltb_spec (length args) 3); [discriminate|]. apply N; [lia|]. intros k. apply A; [lia|]. intros x. apply R. intros m. apply A; [lia|]. intros sb.
      apply Q. intros q. unfold qary. destruct (0 <=? d); [destruct (negb _); [discriminate|auto]|]. destruct (d <? k); [discriminate|]. destruct (_ && _); discriminate. }
    destruct (Ascii.eqb c "t"). { destruct (Nat.ltb_spec (length args) 1); [discriminate|]. apply A; [lia|]. intros x. apply R. intros m. unfold trg. cbv zeta. destruct (_ && _); [auto|discriminate]. }
    destruct (Ascii.eqb c "T"); [|discriminate]. destruct (d <? 0); [discriminate|]. apply R. auto. }
  assert (F : forall s args, fromm s args <> LOver).
  { intros s args. unfold from_method. destruct (Nat.ltb_spec (length args) 2); [discriminate|]. apply A; [lia|]. intros m. apply N; [lia|]. auto. }
  intros [|a rest]; [discriminate|]. cbn [latticegen]. destruct (String.eqb a "--help"); [discriminate|]. destruct (String.eqb a "--version"); [discriminate|].
  destruct (String.eqb a "-randseed"); [|apply F]. destruct rest as [|x rest]; [discriminate|]. destruct (String.eqb x "time"); [apply F|].
  destruct (atol x); [apply F|discriminate].
Qed.

(** a matrix is printed only if a method, a dimension and the parameters of the method are
    given *)
Definition parameters (c : ascii) : option nat :=
  match find (fun p => Ascii.eqb c (fst p))
    [("r", 1%nat); ("s", 2%nat); ("u", 1%nat); ("n", 2%nat); ("N", 2%nat); ("q", 3%nat); ("t", 1%nat); ("T", 0%nat)]%char with
  | Some p => Some (snd p)
  | None => None
  end.
Theorem latticegen_prints_only :
  forall args m, latgen args = LDone m ->
  exists pre c t sd rest n, args = (pre ++ String c t :: sd :: rest)%list /\
    (pre = [] \/ exists x, pre = ["-randseed"%string; x]) /\ parameters c = Some n /\ (n <= length rest)%nat /\
    - 2 ^ 31 <= CmdModel.text_int sd < 2 ^ 31.
Proof.
  assert (G : forall s c d args m, gen s c d args = LDone m -> exists n, parameters c = Some n /\ (n <= length args)%nat).
  { intros s c d args m. unfold generate.
    destruct (Ascii.eqb_spec c "r") as [->|_]. { destruct (Nat.ltb_spec (length args) 1); [discriminate|]. exists 1%nat. auto. }
    destruct (Ascii.eqb_spec c "s") as [->|_]. { destruct (Nat.ltb_spec (length args) 2); [discriminate|]. exists 2%nat. auto. }
    destruct (Ascii.eqb_spec c "u") as [->|_]. { destruct (Nat.ltb_spec (length args) 1); [discriminate|]. exists 1%nat. auto. }
    destruct (Ascii.eqb_spec c "n") as [->|_]. { destruct (Nat.ltb_spec (length args) 2); [discriminate|]. exists 2%nat. auto. }
    destruct (Ascii.eqb_spec c "N") as [->|_]. { destruct (Nat.ltb_spec (length args) 2); [discriminate|]. exists 2%nat. auto. }
    destruct (Ascii.eqb_spec c "q") as [->|_]. { destruct (Nat.ltb_spec (length args) 3); [discriminate|]. exists 3%nat. auto. }
    destruct (Ascii.eqb_spec c "t") as [->|_]. { destruct (Nat.ltb_spec (length args) 1); [discriminate|]. exists 1%nat. auto. }
    destruct (Ascii.eqb_spec c "T") as [->|_]; [|discriminate]. exists 0%nat. split; [reflexivity|lia]. }
  assert (F : forall s args m, fromm s args = LDone m -> exists c t sd rest n, args = String c t :: sd :: rest /\ parameters c = Some n /\ (n <= length rest)%nat /\
    - 2 ^ 31 <= CmdModel.text_int sd < 2 ^ 31).
  { intros s args m. unfold from_method. destruct (Nat.ltb_spec (length args) 2); [discriminate|]. destruct args as [|w [|sd rest]]; [discriminate|cbn in *; lia|].
    unfold arg, num. cbn [nth_error skipn]. unfold CmdModel.atoi.
    destruct ((- 2 ^ 31 <=? CmdModel.text_int sd) && (CmdModel.text_int sd <? 2 ^ 31)) eqn:E; [|discriminate]. apply andb_prop in E. destruct E as [E1 E2].
    apply Z.leb_le in E1. apply Z.ltb_lt in E2.
    intros H1. destruct (G _ _ _ _ _ H1) as [n [Hn Ln]]. destruct w as [|c t]; [discriminate Hn|]. exists c, t, sd, rest, n. auto. }
  intros [|a rest] m; [discriminate|]. cbn [latticegen]. destruct (String.eqb a "--help"); [discriminate|]. destruct (String.eqb a "--version"); [discriminate|].
  destruct (String.eqb_spec a "-randseed") as [->|_].
  - destruct rest as [|x rest]; [discriminate|]. intros H.
    assert (X : exists s, fromm s rest = LDone m) by (destruct (String.eqb x "time"); [eauto|destruct (atol x); [eauto|discriminate]]).
    destruct X as [s X]. destruct (F _ _ _ X) as [c [t [sd [r [n [-> [F2 [F3 F4]]]]]]]]. exists ["-randseed"%string; x], c, t, sd, r, n. split; auto. split; eauto.
  - intros H. destruct (F _ _ _ H) as [c [t [sd [r [n [-> [F2 [F3 F4]]]]]]]]. exists [], c, t, sd, r, n. auto.
Qed.
(** the random numbers are those of the seed given *)
Theorem latticegen_seed :
  forall args,
    (forall a r, args = a :: r -> a <> "--help"%string /\ a <> "--version"%string /\ a <> "-randseed"%string) ->
    (args <> [] -> latgen args = fromm SDefault args) /\
    latgen ("-randseed"%string :: "time"%string :: args) = fromm STime args /\
    (forall x z, PropZnr.numeral (list_ascii_of_string x) z -> 0 <= z < 2 ^ 63 -> latgen ("-randseed"%string :: x :: args) = fromm (SSeed z) args).
Proof.
  intros args H. split.
  - destruct args as [|a r]; [congruence|]. intros _. destruct (H a r eq_refl) as [H1 [H2 H3]]. cbn [latticegen].
    now rewrite (proj2 (String.eqb_neq _ _) H1), (proj2 (String.eqb_neq _ _) H2), (proj2 (String.eqb_neq _ _) H3).
  - split; [reflexivity|]. intros x z Hx Hz. cbn [latticegen].
    change (String.eqb "-randseed" "--help") with false. change (String.eqb "-randseed" "--version") with false. change (String.eqb "-randseed" "-randseed") with true. cbv iota.
    destruct (String.eqb_spec x "time") as [->|_]; [destruct (time_not_numeral z Hx)|].
    unfold atol. rewrite (text_int_numeral x z Hx). rewrite (proj2 (Z.leb_le _ _)) by lia. rewrite (proj2 (Z.ltb_lt z _)) by lia. cbn [andb].
    unfold u64. now rewrite Z.mod_small by lia.
Qed.
End Proofs.

(** * Where README.md and the program differ, and requests that are not refused *)
Section Ex.
Definition ex_pow (a : Z) (x : Z) : option nat := if a =? 1 then Some (Z.to_nat x) else if a =? 0 then Some 1%nat else if a <? 0 then Some 0%nat else None.
Definition ex_str (s : string) : option Z := match CmdModel.atoi s with Some z => if z =? 0 then None else Some z | None => None end.
Definition ex_next (x : Z) : Z := x + 1 + x mod 2.
Definition lg (rnd : nat -> nat -> Z) (sgn : nat -> nat -> bool) (inp : nat -> Z) : list string -> lres :=
  latticegen Z CmdModel.text_int ex_pow ex_str ex_next (fun s i j => rnd i j + match s with SSeed n => n | _ => 0 end) (fun _ => 3) (fun _ => sgn) inp.
Definition r0 (i j : nat) : Z := Z.of_nat (3 * i + j).
Definition r0_inp (i : nat) : Z := Z.of_nat (10 + i).
Definition s0 (i j : nat) : bool := Nat.odd (i + j).
Open Scope string_scope.

(** README: "s d b b2: generates a d x d matrix": it is (d+1) x (d+1); "the first vector
    starts with a random integer of bit-length <= b2": it is always 2^b2 *)
Theorem readme_s_refuted :
  forall rnd sgn inp, exists m, lg rnd sgn inp ["s"; "2"; "3"; "4"] = LDone m /\ mr m = 3%nat /\ mc m = 3%nat /\
    mget (ms m) 0 0 = Some 16 /\ ~ 16 < 2 ^ 4.
Proof. intros. eexists. split; [vm_compute; reflexivity|]. repeat split. intros H. vm_compute in H. discriminate H. Qed.
(** README: "t d f: B_ii = 2^(d-i+1)^f": the diagonal is random *)
Theorem readme_t_refuted :
  exists rnd rnd' m m', lg rnd s0 r0_inp ["t"; "2"; "1"] = LDone m /\ lg rnd' s0 r0_inp ["t"; "2"; "1"] = LDone m' /\
    mget (ms m) 0 0 = Some 2 /\ mget (ms m') 0 0 = Some 7.
Proof. exists (fun _ _ => 0), (fun _ _ => 5). eexists _, _. split; [vm_compute; reflexivity|]. split; [vm_compute; reflexivity|]. split; reflexivity. Qed.
(** README: "n: samples a uniform h": the coefficients always sum up to 0 modulo q, so
    h = 1 is never printed *)
Theorem readme_n_uniform_refuted :
  forall rnd sgn inp m, lg rnd sgn inp ["n"; "2"; "5"; "q"] = LDone m -> ~ (mget (ms m) 0 2 = Some 1 /\ mget (ms m) 0 3 = Some 0).
Proof.
  intros rnd sgn inp m H [E1 E2].
  destruct (latticegen_documented Z CmdModel.text_int ex_pow ex_str ex_next (fun s i j => rnd i j + match s with SSeed n => n | _ => 0 end) (fun _ => 3) (fun _ => sgn) inp)
    with (pre := @nil string) (args := ["n"; "2"; "5"; "q"])
         (P := fun m : mat => exists q h, (fun q' => q' = 5) q /\ is_h h 2 q /\
            is_mat m (2 * 2) (2 * 2) (fun i j => if (i <? 2)%nat then (if (j <? 2)%nat then kron i j 1 else circ h 2 i (j - 2)) else (if (j <? 2)%nat then 0 else kron i j q)))
    as [m' [Hm [q [h [-> [[L [_ S]] [_ [_ HM]]]]]]]].
  - intros x Hx. unfold ex_next. pose proof (Z.mod_pos_bound x 2). lia.
  - constructor.
  - apply (doc_n Z CmdModel.text_int ex_pow ex_str ex_next inp "2" "5" "q" [] 2).
    + split; [|lia]. apply PropZnr.num_pos. apply IoProofs.dec_one. exists 2%nat. auto.
    + lia.
    + lia.
    + apply mod_val; [reflexivity|lia].
  - cbn [app] in Hm. unfold lg in H. rewrite H in Hm. injection Hm as <-.
    pose proof (HM 0%nat 2%nat ltac:(lia) ltac:(lia)) as A. pose proof (HM 0%nat 3%nat ltac:(lia) ltac:(lia)) as B. rewrite E1 in A. rewrite E2 in B.
    destruct h as [|a [|b [|]]]; cbn in L; try lia. unfold circ in A, B. cbn in A, B, S. injection A as <-. injection B as <-. discriminate S.
Qed.
(** only the first character of the method is read *)
Theorem method_word_refuted :
  forall rnd sgn inp, exists m, lg rnd sgn inp ["uniqueshortest"; "2"; "3"] = LDone m /\ lg rnd sgn inp ["u"; "2"; "3"] = LDone m.
Proof. intros. eexists. split; vm_compute; reflexivity. Qed.
(** a negative dimension is accepted, an empty matrix printed; for s (and n with 0) it is
    undefined behaviour, for n, N and T an exception *)
Theorem negative_dimension_refuted :
  forall rnd sgn inp,
  lg rnd sgn inp ["u"; "-3"; "5"] = LDone mat_empty /\ lg rnd sgn inp ["r"; "-3"; "5"] = LDone mat_empty /\
  lg rnd sgn inp ["s"; "-3"; "5"; "5"] = LUb /\ lg rnd sgn inp ["n"; "0"; "5"; "q"] = LUb /\ lg rnd sgn inp ["N"; "-1"; "5"; "b"] = LThrow /\ lg rnd sgn inp ["T"; "-1"] = LThrow.
Proof. intros. repeat split. Qed.
(** negative bits, a negative k, an exponent that makes a diagonal entry of 0 bits: not refused *)
Theorem bad_parameters_refuted :
  forall rnd sgn inp,
  lg rnd sgn inp ["u"; "2"; "-5"] = LHuge /\ lg rnd sgn inp ["q"; "2"; "-1"; "5"; "q"] = LUb /\ lg rnd sgn inp ["t"; "2"; "-1"] = LUb.
Proof. intros. repeat split. Qed.
(** T without numbers on the input: success and a singular matrix *)
Theorem missing_input_refuted :
  forall rnd sgn, exists m, lg rnd sgn (fun _ => 0) ["T"; "2"] = LDone m /\ zdet 2 (fun i j => nth j (nth i (ms m) []) 0) = 0.
Proof. intros. eexists. split; [vm_compute; reflexivity|]. reflexivity. Qed.

(** * Examples *)
Example ex83_int : int_num "12" 12 /\ int_num "-7" (-7).
Proof.
  split; (split; [|lia]).
  - apply PropZnr.num_pos. apply (IoProofs.dec_snoc ["1"%char] 1 "2"%char 2); [apply IoProofs.dec_one; exists 1%nat; auto|exists 2%nat; auto].
  - apply (PropZnr.num_neg ["7"%char] 7). apply IoProofs.dec_one. exists 7%nat. auto.
Qed.
Lemma one_digit c d k : nth_error ["0"; "1"; "2"; "3"; "4"; "5"; "6"; "7"; "8"; "9"]%char k = Some c -> d = Z.of_nat k -> int_num (String c "") d.
Proof.
  intros H E. split; [apply PropZnr.num_pos; apply IoProofs.dec_one; exists k; auto|]. assert (X : nth_error ["0"; "1"; "2"; "3"; "4"; "5"; "6"; "7"; "8"; "9"]%char k <> None) by (rewrite H; discriminate). apply nth_error_Some in X. cbn [length] in X. lia.
Qed.
(** every form of [doc] is inhabited *)
Example ex83_doc : forall inp, (forall i, 0 <= inp i) ->
  let dc a := exists P, doc Z CmdModel.text_int ex_pow ex_str ex_next inp a P in
  dc ["r"; "2"; "3"] /\ dc ["s"; "2"; "3"; "4"] /\ dc ["u"; "2"; "3"; "ignored"] /\ dc ["n"; "2"; "5"; "q"] /\ dc ["N"; "2"; "4"; "b"] /\
  dc ["q"; "3"; "1"; "4"; "p"] /\ dc ["t"; "2"; "1"] /\ dc ["T"; "3"].
Proof.
  intros inp Hi dc.
  assert (N1 : int_num "1" 1) by (apply (one_digit _ _ 1); auto). assert (N2 : int_num "2" 2) by (apply (one_digit _ _ 2); auto).
  assert (N3 : int_num "3" 3) by (apply (one_digit _ _ 3); auto). assert (N4 : int_num "4" 4) by (apply (one_digit _ _ 4); auto).
  split; [eexists; apply (doc_r _ _ _ _ _ _ "2" "3" [] 2 3); auto; lia|].
  split; [eexists; apply (doc_s _ _ _ _ _ _ "2" "3" "4" [] 2 3 4); auto; lia|].
  split; [eexists; apply (doc_u _ _ _ _ _ _ "2" "3" ["ignored"] 2 3); auto; lia|].
  split; [eexists; eapply (doc_n _ _ _ _ _ _ "2" "5" "q" [] 2); [exact N2|lia|lia|apply (mod_val _ _ _ "5" 5); [reflexivity|lia]]|].
  split; [eexists; eapply (doc_N _ _ _ _ _ _ "2" "4" "b" [] 2); [exact N2|lia|lia|apply (mod_bits _ _ _ "4" 4); [exact N4|lia]]|].
  split; [eexists; eapply (doc_q _ _ _ _ _ _ "3" "1" "4" "p" [] 3 1); [exact N3|exact N1|lia|lia|apply (mod_prime _ _ "4" 4); [exact N4|lia]]|].
  split; [eexists; apply (doc_t _ _ _ _ _ _ "2" "1" [] 2 (fun i => (4 - i)%nat)); auto; try lia|].
  - intros i Hl. split; [|lia]. change (ex_pow (CmdModel.text_int "1")) with (ex_pow 1). unfold ex_pow. cbn [Z.eqb Pos.eqb]. f_equal. lia.
  - eexists. apply (doc_T _ _ _ _ _ _ "3" [] 3); auto; lia.
Qed.
Example ex83_seed : seeding [] /\ seeding ["-randseed"; "time"] /\ seeding ["-randseed"; "12"].
Proof. split; [constructor|]. split; [constructor|]. apply (seed_num _ 12); [apply ex83_int|lia]. Qed.
(** two seeds, two matrices *)
Example ex83_runs :
  lg r0 s0 r0_inp ["r"; "2"; "3"] = LDone (mkmat 2 3 [[0; 1; 0]; [3; 0; 1]]) /\
  lg r0 s0 r0_inp ["-randseed"; "2"; "r"; "2"; "3"] = LDone (mkmat 2 3 [[2; 1; 0]; [5; 0; 1]]) /\
  lg r0 s0 r0_inp ["q"; "3"; "1"; "4"; "p"] = LDone (mkmat 3 3 [[1; 0; 2]; [0; 1; 5]; [0; 0; 13]]) /\
  lg r0 s0 r0_inp ["T"; "2"] = LDone (mkmat 2 2 [[10; 0]; [-3; 11]]) /\
  lg r0 s0 r0_inp ["n"; "2"; "x"; "q"] = LFatal /\ lg r0 s0 r0_inp ["-randseed"] = LFatal /\ lg r0 s0 r0_inp [] = LHelp /\ lg r0 s0 r0_inp ["x"; "3"] = LFatal.
Proof. vm_compute. repeat split. Qed.
End Ex.

Print Assumptions latticegen_documented.
Print Assumptions latticegen_no_overread.
Print Assumptions latticegen_prints_only.
Print Assumptions latticegen_seed.
Print Assumptions readme_s_refuted.
Print Assumptions readme_t_refuted.
Print Assumptions readme_n_uniform_refuted.
