(** The texts of JSON (RFC 8259) and the values they denote; strings are lists of
    character codes (the bytes above 127 are not decoded).  Used for the file that
    dump_gso (bkz.cpp:728-798) writes; independent of the model. *)
From Coq Require Import List ZArith Ascii Lia Bool.
Import ListNotations.
Local Open Scope list_scope.

(** a value; JNum m e is the number m * 10^e *)
Inductive jv := JNull | JBool (b : bool) | JNum (m e : Z) | JStr (s : list nat) | JArr (l : list jv)
              | JObj (l : list (list nat * jv)).

(** white space *)
Definition ws (t : list ascii) : Prop := Forall (fun c => In (nat_of_ascii c) [32; 9; 10; 13]%nat) t.
(** the digit of value d *)
Definition digit (c : ascii) (d : Z) : Prop := (0 <= d < 10)%Z /\ nat_of_ascii c = (48 + Z.to_nat d)%nat.
(** k digits of value n *)
Inductive digits : list ascii -> Z -> nat -> Prop :=
| ds_one c d : digit c d -> digits [c] d 1
| ds_snoc t n k c d : digits t n k -> digit c d -> digits (t ++ [c]) (10 * n + d) (S k).
(** the digits before the point: 0, or no zero in front *)
Definition int_part (t : list ascii) (n : Z) : Prop :=
  exists k, digits t n k /\ (k = 1%nat \/ exists c t', t = c :: t' /\ c <> ascii_of_nat 48).
(** point and digits, may be missing *)
Definition frac_part (t : list ascii) (m : Z) (k : nat) : Prop :=
  (t = [] /\ m = 0%Z /\ k = 0%nat) \/ (exists t', t = "."%char :: t' /\ digits t' m k).
(** e, sign and digits, may be missing *)
Definition exp_part (t : list ascii) (e : Z) : Prop :=
  (t = [] /\ e = 0%Z) \/
  (exists c s t' v k, t = c :: s ++ t' /\ (c = "e"%char \/ c = "E"%char) /\ digits t' v k /\
     ((s = [] /\ e = v) \/ (s = ["+"%char] /\ e = v) \/ (s = ["-"%char] /\ e = - v)%Z)).
(** a number *)
Inductive number : list ascii -> Z -> Z -> Prop :=
| number_pos t f x n m k e : int_part t n -> frac_part f m k -> exp_part x e ->
    number (t ++ f ++ x) (n * 10 ^ Z.of_nat k + m) (e - Z.of_nat k)
| number_neg t f x n m k e : int_part t n -> frac_part f m k -> exp_part x e ->
    number ("-"%char :: t ++ f ++ x) (- (n * 10 ^ Z.of_nat k + m)) (e - Z.of_nat k).

(** value of a hexadecimal digit *)
Definition hex (c : ascii) (d : nat) : Prop :=
  let n := nat_of_ascii c in
  ((48 <= n <= 57)%nat /\ d = n - 48)%nat \/ ((65 <= n <= 70)%nat /\ d = n - 55)%nat \/ ((97 <= n <= 102)%nat /\ d = n - 87)%nat.
(** the inside of a string *)
Inductive sbody : list ascii -> list nat -> Prop :=
| sb_nil : sbody [] []
| sb_chr c t s : (32 <= nat_of_ascii c)%nat -> nat_of_ascii c <> 34%nat -> nat_of_ascii c <> 92%nat ->
    sbody t s -> sbody (c :: t) (nat_of_ascii c :: s)
| sb_esc c v t s : In (nat_of_ascii c, v) [(34, 34); (92, 92); (47, 47); (98, 8); (102, 12); (110, 10); (114, 13); (116, 9)]%nat ->
    sbody t s -> sbody (ascii_of_nat 92 :: c :: t) (v :: s)
| sb_hex a b c d x y z w t s : hex a x -> hex b y -> hex c z -> hex d w -> sbody t s ->
    sbody (ascii_of_nat 92 :: "u"%char :: a :: b :: c :: d :: t) (x * 4096 + y * 256 + z * 16 + w :: s)%nat.

(** a value without white space around it *)
Inductive json : list ascii -> jv -> Prop :=
| j_null : json ["n"; "u"; "l"; "l"]%char JNull
| j_true : json ["t"; "r"; "u"; "e"]%char (JBool true)
| j_false : json ["f"; "a"; "l"; "s"; "e"]%char (JBool false)
| j_num t m e : number t m e -> json t (JNum m e)
| j_str t s : sbody t s -> json (ascii_of_nat 34 :: t ++ [ascii_of_nat 34]) (JStr s)
| j_arr0 w : ws w -> json ("["%char :: w ++ ["]"%char]) (JArr [])
| j_arr t l : elements t l -> json ("["%char :: t ++ ["]"%char]) (JArr l)
| j_obj0 w : ws w -> json ("{"%char :: w ++ ["}"%char]) (JObj [])
| j_obj t l : members t l -> json ("{"%char :: t ++ ["}"%char]) (JObj l)
with elements : list ascii -> list jv -> Prop :=
| e_one w1 t w2 v : ws w1 -> json t v -> ws w2 -> elements (w1 ++ t ++ w2) [v]
| e_cons w1 t w2 v t' l : ws w1 -> json t v -> ws w2 -> elements t' l ->
    elements (w1 ++ t ++ w2 ++ ","%char :: t') (v :: l)
with members : list ascii -> list (list nat * jv) -> Prop :=
| m_one w1 k s w2 w3 t w4 v : ws w1 -> sbody k s -> ws w2 -> ws w3 -> json t v -> ws w4 ->
    members (w1 ++ ascii_of_nat 34 :: k ++ ascii_of_nat 34 :: w2 ++ ":"%char :: w3 ++ t ++ w4) [(s, v)]
| m_cons w1 k s w2 w3 t w4 v t' l : ws w1 -> sbody k s -> ws w2 -> ws w3 -> json t v -> ws w4 -> members t' l ->
    members (w1 ++ ascii_of_nat 34 :: k ++ ascii_of_nat 34 :: w2 ++ ":"%char :: w3 ++ t ++ w4 ++ ","%char :: t') ((s, v) :: l).
(** a whole file: a value with white space around it *)
Definition document (t : list ascii) (v : jv) : Prop :=
  exists w1 t' w2, t = w1 ++ t' ++ w2 /\ ws w1 /\ ws w2 /\ json t' v.

Scheme json_mut := Induction for json Sort Prop
  with elements_mut := Induction for elements Sort Prop
  with members_mut := Induction for members Sort Prop.
Combined Scheme json_all from json_mut, elements_mut, members_mut.

(** ** A necessary condition, read by an automaton *)

(** outside, after a comma, in a word that begins with n, in a string, after a
    backslash *)
Inductive st := Out | Oc | Qn | Ins | Esc.
(** white space *)
Definition is_ws (c : ascii) : bool := existsb (Nat.eqb (nat_of_ascii c)) [32; 9; 10; 13]%nat.
(** the other characters that occur outside of strings: digits, +-. eE [ ] { } :
    and the letters of the three words *)
Definition is_ok (c : ascii) : bool :=
  let n := nat_of_ascii c in
  ((48 <=? n) && (n <=? 57) || existsb (Nat.eqb n) [43; 45; 46; 101; 69; 91; 93; 123; 125; 58; 116; 114; 117; 102; 97; 108; 115])%nat.
(** one character *)
Definition stp (q : option st) (c : ascii) : option st :=
  match q with
  | None => None
  | Some Ins => if (nat_of_ascii c =? 34)%nat then Some Out else if (nat_of_ascii c =? 92)%nat then Some Esc else Some Ins
  | Some Esc => Some Ins
  | Some Qn => if (nat_of_ascii c =? 117)%nat then Some Out else None
  | Some q' =>
    if is_ws c then Some q'
    else if (nat_of_ascii c =? 34)%nat then Some Ins
    else if (nat_of_ascii c =? 44)%nat then Some Oc
    else if (nat_of_ascii c =? 110)%nat then Some Qn
    else if is_ok c then Some Out else None
  end.
(** a text *)
Definition run (q : option st) (t : list ascii) : option st := fold_left stp t q.

Lemma run_app q a b : run q (a ++ b) = run (run q a) b.
Proof. apply fold_left_app. Qed.
Lemma run_none t : run None t = None.
Proof. induction t; cbn; auto. Qed.
Lemma run_cons q c t : run q (c :: t) = run (stp q c) t.
Proof. reflexivity. Qed.

(** the two states outside of strings *)
Definition outer (q : st) : Prop := q = Out \/ q = Oc.

Lemma run_ws w q : ws w -> outer q -> run (Some q) w = Some q.
Proof.
  intros H Hq. induction H as [|c w Hc Hw IH]; [reflexivity|].
  rewrite run_cons. replace (stp (Some q) c) with (Some q); [exact IH|].
  assert (E : is_ws c = true).
  { unfold is_ws. apply existsb_exists. exists (nat_of_ascii c). split; [exact Hc | apply Nat.eqb_refl]. }
  destruct Hq as [-> | ->]; cbn [stp]; rewrite E; reflexivity.
Qed.
Lemma stp_digit c d q : digit c d -> outer q -> stp (Some q) c = Some Out.
Proof.
  intros [Hd Hc] Hq.
  assert (E : is_ws c = false).
  { unfold is_ws. rewrite Hc. cbn [existsb]. rewrite !(proj2 (Nat.eqb_neq _ _)) by lia. reflexivity. }
  assert (E2 : is_ok c = true).
  { unfold is_ok. rewrite Hc. replace (48 <=? 48 + Z.to_nat d)%nat with true by (symmetry; apply Nat.leb_le; lia).
    replace (48 + Z.to_nat d <=? 57)%nat with true by (symmetry; apply Nat.leb_le; lia). reflexivity. }
  destruct Hq as [-> | ->]; cbn [stp]; rewrite E, E2, Hc, !(proj2 (Nat.eqb_neq _ _)) by lia; reflexivity.
Qed.
Lemma run_digits t n k : digits t n k -> forall q, outer q -> run (Some q) t = Some Out.
Proof.
  induction 1 as [c d Hd | t n k c d Ht IH Hd]; intros q Hq.
  - cbn [run fold_left]. apply (stp_digit _ _ _ Hd Hq).
  - rewrite run_app, (IH q Hq). cbn [run fold_left]. apply (stp_digit _ _ _ Hd). left; reflexivity.
Qed.
Lemma run_frac f m k : frac_part f m k -> run (Some Out) f = Some Out.
Proof.
  intros [(-> & _) | (t' & -> & Ht)]; [reflexivity|].
  rewrite run_cons. change (stp (Some Out) ".") with (Some Out). apply (run_digits _ _ _ Ht). left; reflexivity.
Qed.
Lemma run_exp x e : exp_part x e -> run (Some Out) x = Some Out.
Proof.
  intros [(-> & _) | (c & s & t' & v & k & -> & Hc & Ht & Hs)]; [reflexivity|].
  rewrite run_cons. replace (stp (Some Out) c) with (Some Out) by (destruct Hc as [-> | ->]; reflexivity).
  rewrite run_app. replace (run (Some Out) s) with (Some Out) by (destruct Hs as [[-> _]|[[-> _]|[-> _]]]; reflexivity).
  apply (run_digits _ _ _ Ht). left; reflexivity.
Qed.
Lemma run_number t m e : number t m e -> forall q, outer q -> run (Some q) t = Some Out.
Proof.
  intros H q Hq. destruct H as [t f x n m k e (k' & Ht & _) Hf Hx | t f x n m k e (k' & Ht & _) Hf Hx].
  - rewrite !run_app, (run_digits _ _ _ Ht q Hq), (run_frac _ _ _ Hf). exact (run_exp _ _ Hx).
  - rewrite run_cons. replace (stp (Some q) "-") with (Some Out) by (destruct Hq as [-> | ->]; reflexivity).
    rewrite !run_app, (run_digits _ _ _ Ht Out), (run_frac _ _ _ Hf) by (left; reflexivity). exact (run_exp _ _ Hx).
Qed.
Lemma stp_hex c d : hex c d -> stp (Some Ins) c = Some Ins.
Proof.
  intros H. cbn [stp]. destruct H as [[H _]|[[H _]|[H _]]]; rewrite !(proj2 (Nat.eqb_neq _ _)) by lia; reflexivity.
Qed.
Lemma run_sbody t s : sbody t s -> run (Some Ins) t = Some Ins.
Proof.
  induction 1 as [| c t s H1 H2 H3 Ht IH | c v t s Hc Ht IH | a b c d x y z w t s Ha Hb Hc Hd Ht IH].
  - reflexivity.
  - rewrite run_cons. cbn [stp]. rewrite !(proj2 (Nat.eqb_neq _ _)) by lia. exact IH.
  - rewrite !run_cons. exact IH.
  - rewrite !run_cons. change (stp (stp (Some Ins) (ascii_of_nat 92)) "u") with (Some Ins).
    rewrite (stp_hex _ _ Ha), (stp_hex _ _ Hb), (stp_hex _ _ Hc), (stp_hex _ _ Hd). exact IH.
Qed.
Lemma stp_quote q : outer q -> stp (Some q) (ascii_of_nat 34) = Some Ins.
Proof. intros [-> | ->]; reflexivity. Qed.
Lemma stp_open q : outer q -> stp (Some q) "[" = Some Out /\ stp (Some q) "{" = Some Out.
Proof. intros [-> | ->]; split; reflexivity. Qed.
Lemma out_outer : outer Out. Proof. left; reflexivity. Qed.
Lemma oc_outer : outer Oc. Proof. right; reflexivity. Qed.

Lemma json_run :
  (forall t v, json t v -> forall q, outer q -> run (Some q) t = Some Out) /\
  (forall t l, elements t l -> forall q, outer q -> run (Some q) t = Some Out) /\
  (forall t l, members t l -> forall q, outer q -> run (Some q) t = Some Out).
Proof.
  pose proof out_outer as OO. pose proof oc_outer as OC.
  apply (json_all (fun t v _ => forall q, outer q -> run (Some q) t = Some Out)
                  (fun t l _ => forall q, outer q -> run (Some q) t = Some Out)
                  (fun t l _ => forall q, outer q -> run (Some q) t = Some Out)).
  - intros q [-> | ->]; reflexivity.
  - intros q [-> | ->]; reflexivity.
  - intros q [-> | ->]; reflexivity.
  - intros t m e H q Hq. exact (run_number _ _ _ H q Hq).
  - intros t s H q Hq. rewrite run_cons, (stp_quote q Hq), run_app, (run_sbody _ _ H). reflexivity.
  - intros w H q Hq. rewrite run_cons, (proj1 (stp_open q Hq)), run_app, (run_ws _ _ H OO). reflexivity.
  - intros t l _ IH q Hq. rewrite run_cons, (proj1 (stp_open q Hq)), run_app, (IH Out OO). reflexivity.
  - intros w H q Hq. rewrite run_cons, (proj2 (stp_open q Hq)), run_app, (run_ws _ _ H OO). reflexivity.
  - intros t l _ IH q Hq. rewrite run_cons, (proj2 (stp_open q Hq)), run_app, (IH Out OO). reflexivity.
  - intros w1 t w2 v H1 _ IH H2 q Hq. rewrite !run_app, (run_ws _ _ H1 Hq), (IH q Hq). exact (run_ws _ _ H2 OO).
  - intros w1 t w2 v t' l H1 _ IH H2 _ IH' q Hq.
    rewrite !run_app, (run_ws _ _ H1 Hq), (IH q Hq), (run_ws _ _ H2 OO), run_cons. exact (IH' Oc OC).
  - intros w1 k s w2 w3 t w4 v H1 Hk H2 H3 _ IH H4 q Hq.
    rewrite run_app, (run_ws _ _ H1 Hq), run_cons, (stp_quote q Hq), run_app, (run_sbody _ _ Hk), run_cons.
    change (stp (Some Ins) (ascii_of_nat 34)) with (Some Out).
    rewrite run_app, (run_ws _ _ H2 OO), run_cons. change (stp (Some Out) ":") with (Some Out).
    rewrite !run_app, (run_ws _ _ H3 OO), (IH Out OO). exact (run_ws _ _ H4 OO).
  - intros w1 k s w2 w3 t w4 v t' l H1 Hk H2 H3 _ IH H4 _ IH' q Hq.
    rewrite run_app, (run_ws _ _ H1 Hq), run_cons, (stp_quote q Hq), run_app, (run_sbody _ _ Hk), run_cons.
    change (stp (Some Ins) (ascii_of_nat 34)) with (Some Out).
    rewrite run_app, (run_ws _ _ H2 OO), run_cons. change (stp (Some Out) ":") with (Some Out).
    rewrite !run_app, (run_ws _ _ H3 OO), (IH Out OO), (run_ws _ _ H4 OO), run_cons. exact (IH' Oc OC).
Qed.
(** every document ends outside of strings and not after a comma *)
Lemma document_run t v : document t v -> run (Some Out) t = Some Out.
Proof.
  intros (w1 & t' & w2 & -> & H1 & H2 & H).
  rewrite !run_app, (run_ws _ _ H1 out_outer), (proj1 json_run _ _ H Out out_outer). exact (run_ws _ _ H2 out_outer).
Qed.
