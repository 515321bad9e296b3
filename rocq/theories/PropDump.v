(** C91: the file written with BKZ_DUMP_GSO (bkz.cpp:522-672, 728-798) *)
From Coq Require Import List ZArith Bool Ascii String Lia Arith Reals Lra.
From Verif Require Import IoModel DumpModel JsonSpec.
Import ListNotations.
Local Notation length := List.length.
Local Open Scope list_scope.

(** ** What is expected *)

(** the texts that the C++ library prints: digits, at least one before the point
    and after the e *)
Definition printed (x : dnum) : Prop :=
  match x with
  | Fin _ ip fs ex =>
    (0 <= ip)%Z /\ Forall (fun d => d < 10)%nat fs /\
    match ex with None => True | Some (_, es) => es <> [] /\ Forall (fun d => d < 10)%nat es end
  | _ => True
  end.
Definition finite (x : dnum) : Prop := match x with Fin _ _ _ _ => True | _ => False end.
(** the value of digits *)
Definition dval (l : list nat) : Z := fold_left (fun a d => 10 * a + Z.of_nat d)%Z l 0%Z.
(** the number that a text denotes *)
Definition jnum (x : dnum) : jv :=
  match x with
  | Fin neg ip fs ex =>
    let m := (ip * 10 ^ Z.of_nat (length fs) + dval fs)%Z in
    let e := match ex with None => 0%Z | Some (en, es) => if en then (- dval es)%Z else dval es end in
    JNum (if neg then - m else m)%Z (e - Z.of_nat (length fs))
  | _ => JNull
  end.
Definition codes (s : string) : list nat := map nat_of_ascii (list_ascii_of_string s).
(** the description of one moment of the run *)
Definition shape (step : string) (lp : Z) (time : dnum) (norms : list dnum) : jv :=
  JObj [(codes "step", JStr (codes step)); (codes "loop", JNum lp 0); (codes "time", jnum time);
        (codes "norms", JArr (map jnum norms))].
Definition loop_name (p : dpar) : string :=
  if d_sd p then "End of SD-BKZ loop" else if d_sld p then "End of SLD loop" else "End of BKZ loop".
Definition tour_shape (p : dpar) (o : nat -> iter) (i : nat) : jv :=
  match i_tour (o i) with TDone _ n t => shape (loop_name p) (Z.of_nat i) t n | _ => JNull end.
(** the limits before tour i *)
Definition at_loops (p : dpar) (i : nat) : Prop := exists m, d_loops p = Some m /\ (m <= Z.of_nat i)%Z.
Definition at_time (p : dpar) (o : nat -> iter) (i : nat) : Prop := d_time p = true /\ i_time (o i) = true.
Definition at_abort (p : dpar) (o : nat -> iter) (i : nat) : Prop :=
  (d_abort p = true \/ (d_sd p = true /\ d_loops p = None /\ d_time p = false)) /\ i_abort (o i) = true.
(** k tours are carried out and the status is s *)
Definition tours_done (p : dpar) (o : nat -> iter) (k : nat) (s : Z) : Prop :=
  (forall i, (i < k)%nat -> ~ at_loops p i /\ ~ at_time p o i /\ ~ at_abort p o i /\
                            exists c n t, i_tour (o i) = TDone c n t) /\
  (forall i c n t, (S i < k)%nat -> i_tour (o i) = TDone c n t -> c = false /\ (d_bs p < d_rows p)%Z) /\
  ((s = 8%Z /\ at_loops p k) \/ (s = 7%Z /\ at_time p o k) \/ (s = 0%Z /\ at_abort p o k) \/
   (s = 0%Z /\ exists j c n t, k = S j /\ i_tour (o j) = TDone c n t /\ (c = true \/ (d_rows p <= d_bs p)%Z))).

(** ** Numbers *)

Lemma nat_asc n : (n < 256)%nat -> nat_of_ascii (ascii_of_nat n) = n.
Proof. apply nat_ascii_embedding. Qed.
Lemma digs_digits l : l <> [] -> Forall (fun d => d < 10)%nat l -> digits (digs l) (dval l) (length l).
Proof.
  induction l as [|d l IH] using rev_ind; [congruence|]. intros _ H.
  apply Forall_app in H. destruct H as [Hl Hd]. inversion Hd as [|? ? Hd1 _]; subst.
  assert (D : digit (ascii_of_nat (48 + d)) (Z.of_nat d)).
  { split; [lia|]. rewrite nat_asc by lia. rewrite Nat2Z.id. reflexivity. }
  unfold digs, dval in *. rewrite map_app, fold_left_app, app_length. cbn [map fold_left List.length].
  destruct l as [|e l].
  - cbn [map app fold_left List.length Nat.add]. apply ds_one. exact D.
  - rewrite Nat.add_1_r. apply ds_snoc; [apply IH; [discriminate | exact Hl] | exact D].
Qed.
Lemma dec_digits_json fuel : forall n, (0 <= n < 2 ^ Z.of_nat fuel)%Z -> (0 < fuel)%nat ->
  exists k, digits (dec_digits fuel n) n k /\ (n = 0%Z -> k = 1%nat) /\
            (n <> 0%Z -> exists c t, dec_digits fuel n = c :: t /\ c <> ascii_of_nat 48).
Proof.
  induction fuel as [|f IH]; intros n Hn Hf; [lia|]. cbn [dec_digits].
  assert (D : forall d, (0 <= d < 10)%Z -> digit (digit_chr d) d).
  { intros d Hd. split; [exact Hd|]. unfold digit_chr. apply nat_asc. lia. }
  destruct (Z.ltb_spec n 10) as [L|L].
  - exists 1%nat. split; [apply ds_one, D; lia|]. split; [reflexivity|]. intros N. exists (digit_chr n), [].
    split; [reflexivity|]. intros E. apply (f_equal nat_of_ascii) in E. unfold digit_chr in E.
    rewrite !nat_asc in E by lia. lia.
  - assert (E : (2 ^ Z.of_nat (S f) = 2 * 2 ^ Z.of_nat f)%Z) by (rewrite Nat2Z.inj_succ, Z.pow_succ_r by lia; reflexivity).
    assert (F : (0 < f)%nat).
    { destruct f; [cbn in Hn; lia | lia]. }
    pose proof (Z.div_mod n 10 ltac:(lia)) as DM. pose proof (Z.mod_pos_bound n 10 ltac:(lia)) as MB.
    destruct (IH (n / 10)%Z) as (k & Hk & _ & Hd); [lia | exact F |].
    exists (S k). split; [|split; [lia|]].
    + pose proof (ds_snoc _ _ _ _ _ Hk (D (n mod 10)%Z MB)) as R. rewrite <- DM in R. exact R.
    + intros _. destruct Hd as (c & t & -> & Hc); [lia|]. exists c, (t ++ [digit_chr (n mod 10)]). split; [reflexivity | exact Hc].
Qed.
Lemma show_int n : (0 <= n)%Z -> int_part (show_z n) n.
Proof.
  intros Hn. unfold show_z. rewrite (proj2 (Z.ltb_ge n 0)) by lia. cbn [app]. rewrite (Z.abs_eq n Hn).
  destruct (dec_digits_json (S (Z.to_nat (Z.log2 n))) n) as (k & Hk & H0 & H1).
  { split; [exact Hn|]. rewrite Nat2Z.inj_succ, Z2Nat.id by apply Z.log2_nonneg.
    destruct (Z.eq_dec n 0) as [->|N]; [reflexivity|]. apply Z.log2_spec. lia. }
  { lia. }
  exists k. split; [exact Hk|]. destruct (Z.eq_dec n 0) as [E|N]; [left; exact (H0 E) | right; exact (H1 N)].
Qed.
Lemma no_frac : frac_part [] 0 0. Proof. left. auto. Qed.
Lemma no_exp : exp_part [] 0. Proof. left. auto. Qed.
Lemma show_z_json z : json (show_z z) (JNum z 0).
Proof.
  apply j_num. destruct (Z_lt_le_dec z 0) as [N|P].
  - pose proof (number_neg _ _ _ _ _ _ _ (show_int (- z) ltac:(lia)) no_frac no_exp) as R.
    rewrite !app_nil_r in R. cbn [Z.of_nat] in R. rewrite Z.pow_0_r in R.
    replace (- (- z * 1 + 0))%Z with z in R by lia.
    replace (show_z z) with ("-"%char :: show_z (- z)); [exact R|].
    unfold show_z. rewrite (proj2 (Z.ltb_lt z 0)), (proj2 (Z.ltb_ge (- z) 0)), Z.abs_opp by lia. reflexivity.
  - pose proof (number_pos _ _ _ _ _ _ _ (show_int z P) no_frac no_exp) as R.
    rewrite !app_nil_r in R. cbn [Z.of_nat] in R. rewrite Z.pow_0_r in R.
    replace (z * 1 + 0)%Z with z in R by lia. exact R.
Qed.
Lemma show_num_json x : printed x -> finite x -> json (show_num x) (jnum x).
Proof.
  destruct x as [neg ip fs ex| |]; [|contradiction|contradiction]. intros (Hip & Hfs & Hex) _.
  cbn [show_num jnum]. apply j_num.
  assert (F : frac_part (match fs with [] => [] | _ => lit "." ++ digs fs end) (dval fs) (length fs)).
  { destruct fs as [|d fs]; [left; auto|]. right. exists (digs (d :: fs)). split; [reflexivity|].
    apply digs_digits; [discriminate | exact Hfs]. }
  assert (X : exp_part (match ex with None => [] | Some (en, es) => lit "e" ++ lit (if en then "-" else "+") ++ digs es end)
                (match ex with None => 0%Z | Some (en, es) => if en then (- dval es)%Z else dval es end)).
  { destruct ex as [[en es]|]; [|left; auto]. right. destruct Hex as [N Hes].
    exists "e"%char, (lit (if en then "-" else "+")), (digs es), (dval es), (length es).
    split; [reflexivity|]. split; [left; reflexivity|]. split; [apply digs_digits; assumption|].
    destruct en; [right; right | right; left]; split; reflexivity. }
  destruct neg.
  - exact (number_neg _ _ _ _ _ _ _ (show_int ip Hip) F X).
  - exact (number_pos _ _ _ _ _ _ _ (show_int ip Hip) F X).
Qed.

(** ** The list of the numbers *)

Fixpoint joined (x : dnum) (l : list dnum) : text :=
  match l with [] => show_num x | y :: l' => show_num x ++ lit ", " ++ joined y l' end.
Lemma stream_joined l : forall x, norms_stream (x :: l) = joined x l ++ lit ", ".
Proof.
  induction l as [|y l IH]; intros x; cbn [norms_stream joined]; [reflexivity|].
  cbn [norms_stream] in IH. rewrite (IH y), <- !app_assoc. reflexivity.
Qed.
Lemma cut2_app t a b : cut2 (t ++ [a; b]) = t.
Proof.
  unfold cut2. rewrite app_length. cbn [List.length].
  rewrite (proj2 (Nat.ltb_ge _ _)) by lia. replace (length t + 2 - 2)%nat with (length t) by lia.
  rewrite firstn_app, Nat.sub_diag, firstn_all. cbn [firstn]. apply app_nil_r.
Qed.
Lemma cut_joined x l : cut2 (norms_stream (x :: l)) = joined x l.
Proof. rewrite stream_joined. apply cut2_app. Qed.
Lemma ws_nil : ws []. Proof. constructor. Qed.
Lemma ws_sp n : ws (sp n).
Proof. unfold sp. induction n; cbn [repeat]; constructor; [cbn; auto | exact IHn]. Qed.
Lemma ws_nl w : ws w -> ws (c_nl :: w).
Proof. intros H. constructor; [cbn; auto | exact H]. Qed.
Lemma joined_elements l : forall x w, ws w -> Forall printed (x :: l) -> Forall finite (x :: l) ->
  elements (w ++ joined x l) (map jnum (x :: l)).
Proof.
  induction l as [|y l IH]; intros x w Hw HP HF; inversion HP as [|? ? P1 P2]; inversion HF as [|? ? F1 F2]; subst; cbn [joined map].
  - pose proof (e_one w _ [] _ Hw (show_num_json x P1 F1) ws_nil) as R. rewrite app_nil_r in R. exact R.
  - exact (e_cons w _ [] _ _ _ Hw (show_num_json x P1 F1) ws_nil (IH y [c_space] (ws_sp 1) P2 F2)).
Qed.
Lemma norms_json l : Forall printed l -> Forall finite l ->
  json ("["%char :: cut2 (norms_stream l) ++ ["]"%char]) (JArr (map jnum l)).
Proof.
  intros HP HF. destruct l as [|x l].
  - exact (j_arr0 [] ws_nil).
  - rewrite cut_joined. apply j_arr. exact (joined_elements l x [] ws_nil HP HF).
Qed.

(** ** One entry *)

Definition plain (s : string) : bool :=
  forallb (fun c => let n := nat_of_ascii c in (32 <=? n) && negb (n =? 34) && negb (n =? 92))%nat (lit s).
Lemma plain_sbody s : plain s = true -> sbody (lit s) (codes s).
Proof.
  unfold plain, codes, lit. generalize (list_ascii_of_string s). intros l. induction l as [|c l IH]; intros H; [constructor|].
  cbn [forallb map] in *. apply andb_true_iff in H. destruct H as [H1 H2].
  apply andb_true_iff in H1. destruct H1 as [H1 H3]. apply andb_true_iff in H1. destruct H1 as [H1 H4].
  apply Nat.leb_le in H1. apply negb_true_iff in H3, H4. apply Nat.eqb_neq in H3, H4.
  apply sb_chr; auto.
Qed.
Definition obj (step : string) (lp : Z) (time : dnum) (norms : list dnum) : text :=
  lit "{" ++ [c_nl]
  ++ sp 16 ++ [c_quote] ++ lit "step" ++ [c_quote] ++ lit ": " ++ [c_quote] ++ lit step ++ [c_quote] ++ lit "," ++ [c_nl]
  ++ sp 16 ++ [c_quote] ++ lit "loop" ++ [c_quote] ++ lit ": " ++ show_z lp ++ lit "," ++ [c_nl]
  ++ sp 16 ++ [c_quote] ++ lit "time" ++ [c_quote] ++ lit ": " ++ show_num time ++ lit "," ++ [c_nl]
  ++ sp 16 ++ [c_quote] ++ lit "norms" ++ [c_quote] ++ lit ": [" ++ cut2 (norms_stream norms) ++ lit "]" ++ [c_nl]
  ++ sp 8 ++ lit "}".
Lemma entry_obj step lp time norms :
  entry step lp time norms =
  sp 8 ++ obj step lp time norms ++ (if String.eqb step "Output" then [c_nl] ++ lit "]" else lit "," ++ [c_nl]).
Proof. unfold entry, obj. rewrite <- !app_assoc. reflexivity. Qed.
Lemma obj_json step lp time norms : plain step = true -> printed time -> finite time -> Forall printed norms -> Forall finite norms ->
  json (obj step lp time norms) (shape step lp time norms).
Proof.
  intros Hs Pt Ft Pn Fn.
  pose proof (ws_nl _ (ws_sp 16)) as W. pose proof (ws_nl _ (ws_sp 8)) as W8. pose proof (ws_sp 1) as W1. pose proof ws_nil as W0.
  pose proof (m_one (c_nl :: sp 16) (lit "norms") (codes "norms") [] (sp 1) _ (c_nl :: sp 8) _ W
                (plain_sbody "norms" eq_refl) W0 W1 (norms_json norms Pn Fn) W8) as M4.
  pose proof (m_cons (c_nl :: sp 16) (lit "time") (codes "time") [] (sp 1) _ [] _ _ _ W
                (plain_sbody "time" eq_refl) W0 W1 (show_num_json time Pt Ft) W0 M4) as M3.
  pose proof (m_cons (c_nl :: sp 16) (lit "loop") (codes "loop") [] (sp 1) _ [] _ _ _ W
                (plain_sbody "loop" eq_refl) W0 W1 (show_z_json lp) W0 M3) as M2.
  pose proof (m_cons (c_nl :: sp 16) (lit "step") (codes "step") [] (sp 1) _ [] _ _ _ W
                (plain_sbody "step" eq_refl) W0 W1 (j_str _ _ (plain_sbody step Hs)) W0 M2) as M1.
  pose proof (j_obj _ _ M1) as J. unfold shape. clear M1 M2 M3 M4.
  match type of J with json ?a _ => replace (obj step lp time norms) with a; [exact J|] end.
  unfold obj. generalize (cut2 (norms_stream norms)) (show_num time) (show_z lp) (lit step). clear. intros cn tm lo stp.
  cbn. repeat (rewrite <- ?app_assoc; cbn [app]). reflexivity.
Qed.

(** ** The file *)

(** the entries that are followed by another one *)
Definition pend (l : list text) : text := List.concat (map (fun e => sp 8 ++ e ++ lit "," ++ [c_nl]) l).
Lemma pend_elements es vs : Forall2 json es vs -> forall e v, json e v ->
  elements (c_nl :: pend es ++ sp 8 ++ e ++ [c_nl]) (vs ++ [v]).
Proof.
  induction 1 as [|e0 v0 es vs H0 Hs IH]; intros e v He.
  - exact (e_one (c_nl :: sp 8) e [c_nl] v (ws_nl _ (ws_sp 8)) He (ws_nl _ ws_nil)).
  - pose proof (e_cons (c_nl :: sp 8) e0 [] v0 _ _ (ws_nl _ (ws_sp 8)) H0 ws_nil (IH e v He)) as R.
    cbn [app] in R |- *. unfold pend in *. cbn [map List.concat].
    rewrite <- !app_assoc in *. exact R.
Qed.
Lemma pend_app a b : pend (a ++ b) = pend a ++ pend b.
Proof. unfold pend. rewrite map_app, List.concat_app. reflexivity. Qed.
Definition tour_obj (p : dpar) (o : nat -> iter) (i : nat) : text :=
  match i_tour (o i) with TDone _ n t => obj (loop_name p) (Z.of_nat i) t n | _ => [] end.

Lemma loop_name_out p : String.eqb (loop_name p) "Output" = false.
Proof. unfold loop_name. destruct (d_sd p), (d_sld p); reflexivity. Qed.
Lemma loop_name_plain p : plain (loop_name p) = true.
Proof. unfold loop_name. destruct (d_sd p), (d_sld p); reflexivity. Qed.

(** the loop with the flag set: the file is extended by one entry for every tour *)
Lemma finish_dump p i post outn outt file err fin :
  d_dump p = true ->
  let r := finish p true i post outn outt file err fin in
  (exists s, o_res r = Ret s /\ s = fin /\ o_file r = file ++ entry "Output" (-1) outt outn) \/
  ((forall s, o_res r <> Ret s) /\ o_file r = file).
Proof.
  intros Hd. unfold finish, dump_gso. rewrite Hd. cbn zeta.
  destruct (d_sd p || d_sld p); [destruct post|]; cbn [o_res o_file].
  - right. split; [intros ? E; discriminate E | reflexivity].
  - right. split; [intros ? E; discriminate E | reflexivity].
  - left. exists fin. repeat split; reflexivity.
  - left. exists fin. repeat split; reflexivity.
Qed.
Lemma at_loops_dec p i :
  (match d_loops p with Some m => (m <=? Z.of_nat i)%Z | None => false end) = true <-> at_loops p i.
Proof.
  unfold at_loops. destruct (d_loops p) as [m|].
  - rewrite Z.leb_le. split; [intros H; exists m; auto | intros (m' & [= <-] & H); exact H].
  - split; [discriminate | intros (m' & E & _); discriminate E].
Qed.
Lemma at_time_dec p o i : d_time p && i_time (o i) = true <-> at_time p o i.
Proof. apply andb_true_iff. Qed.
Lemma at_abort_dec p o i : (d_abort p || forced_abort p) && i_abort (o i) = true <-> at_abort p o i.
Proof.
  unfold at_abort, forced_abort. rewrite andb_true_iff, orb_true_iff.
  destruct (d_abort p), (d_sd p), (d_loops p), (d_time p); cbn; intuition discriminate.
Qed.
Lemma not_true_iff b P : (b = true <-> P) -> b = false -> ~ P.
Proof. intros H E HP. apply H in HP. congruence. Qed.

Lemma loop_dump fuel : forall p o post outn outt i file err out,
  d_dump p = true ->
  (forall j, (j < i)%nat -> ~ at_loops p j /\ ~ at_time p o j /\ ~ at_abort p o j /\ exists c n t, i_tour (o j) = TDone c n t) ->
  (forall j c n t, (j < i)%nat -> i_tour (o j) = TDone c n t -> c = false /\ (d_bs p < d_rows p)%Z) ->
  loop fuel p true o post outn outt i file err = Some out ->
  exists k, (i <= k)%nat /\
    ((exists s, o_res out = Ret s /\ tours_done p o k s /\
       o_file out = file ++ pend (map (tour_obj p o) (seq i (k - i))) ++ entry "Output" (-1) outt outn) \/
     ((forall s, o_res out <> Ret s) /\ o_file out = file ++ pend (map (tour_obj p o) (seq i (k - i))) /\
      forall j, (i <= j < k)%nat -> exists c n t, i_tour (o j) = TDone c n t)).
Proof.
  induction fuel as [|fuel IH]; intros p o post outn outt i file err out Hd Hb Hc; [discriminate|].
  cbn [loop].
  assert (STOP : forall fin err', 
    (fin = 8%Z /\ at_loops p i) \/ (fin = 7%Z /\ at_time p o i) \/ (fin = 0%Z /\ at_abort p o i) ->
    let out := finish p true (Z.of_nat i) post outn outt file err' fin in
    exists k, (i <= k)%nat /\
    ((exists s, o_res out = Ret s /\ tours_done p o k s /\
       o_file out = file ++ pend (map (tour_obj p o) (seq i (k - i))) ++ entry "Output" (-1) outt outn) \/
     ((forall s, o_res out <> Ret s) /\ o_file out = file ++ pend (map (tour_obj p o) (seq i (k - i))) /\
      forall j, (i <= j < k)%nat -> exists c n t, i_tour (o j) = TDone c n t))).
  { intros fin err' HF out'. exists i. split; [lia|]. rewrite Nat.sub_diag. cbn [seq map pend List.concat].
    destruct (finish_dump p (Z.of_nat i) post outn outt file err' fin Hd) as [(s & E1 & E2 & E3) | [E1 E2]].
    - left. exists s. split; [exact E1|]. split; [|exact E3]. subst s. split; [exact Hb|]. split.
      + intros j c n t Hj. apply Hc. lia.
      + tauto.
    - right. split; [exact E1|]. split; [rewrite app_nil_r; exact E2|]. intros j Hj. lia. }
  destruct (match d_loops p with Some m => (m <=? Z.of_nat i)%Z | None => false end) eqn:E1.
  { intros [= <-]. apply STOP. left. split; [reflexivity | apply at_loops_dec; exact E1]. }
  destruct (d_time p && i_time (o i)) eqn:E2.
  { intros [= <-]. apply STOP. right. left. split; [reflexivity | apply at_time_dec; exact E2]. }
  destruct ((d_abort p || forced_abort p) && i_abort (o i)) eqn:E3.
  { intros [= <-]. apply STOP. right. right. split; [reflexivity | apply at_abort_dec; exact E3]. }
  clear STOP.
  destruct (i_tour (o i)) as [e| |c n t] eqn:ET.
  - intros [= <-]. exists i. split; [lia|]. right. rewrite Nat.sub_diag. cbn. rewrite app_nil_r.
    split; [intros ? E; discriminate E|]. split; [reflexivity | intros; lia].
  - intros [= <-]. exists i. split; [lia|]. right. rewrite Nat.sub_diag. cbn. rewrite app_nil_r.
    split; [intros ? E; discriminate E|]. split; [reflexivity | intros; lia].
  - rewrite Hd. unfold dump_gso.
    assert (F : file ++ entry (tour_step p) (Z.of_nat i) t n = file ++ pend [tour_obj p o i]).
    { rewrite entry_obj. change (tour_step p) with (loop_name p). rewrite loop_name_out.
      unfold tour_obj, pend. rewrite ET. cbn [map List.concat]. rewrite app_nil_r. reflexivity. }
    rewrite F.
    assert (Hb' : forall j, (j < S i)%nat -> ~ at_loops p j /\ ~ at_time p o j /\ ~ at_abort p o j /\ exists c n t, i_tour (o j) = TDone c n t).
    { intros j Hj. destruct (Nat.eq_dec j i) as [->|N]; [|apply Hb; lia].
      split; [exact (not_true_iff _ _ (at_loops_dec p i) E1)|]. split; [exact (not_true_iff _ _ (at_time_dec p o i) E2)|].
      split; [exact (not_true_iff _ _ (at_abort_dec p o i) E3)|]. exists c, n, t. exact ET. }
    destruct (c || (d_rows p <=? d_bs p)%Z) eqn:EC.
    + intros [= <-]. exists (S i). split; [lia|]. replace (S i - i)%nat with 1%nat by lia. cbn [seq map].
      match goal with |- context [finish p true ?a ?b ?c0 ?d ?f ?e ?g] =>
        destruct (finish_dump p a b c0 d f e g Hd) as [(s & R1 & R2 & R3) | [R1 R2]] end.
      * left. exists s. split; [exact R1|]. split; [|rewrite R3, <- app_assoc; reflexivity]. subst s.
        split; [exact Hb'|]. split; [intros j c' n' t' Hj; apply Hc; lia|].
        right. right. right. split; [reflexivity|]. exists i, c, n, t. split; [reflexivity|]. split; [exact ET|].
        apply orb_true_iff in EC. rewrite Z.leb_le in EC. exact EC.
      * right. split; [exact R1|]. split; [exact R2|]. intros j Hj. assert (j = i) as -> by lia. exists c, n, t. exact ET.
    + intros HL. apply orb_false_iff in EC. destruct EC as [EC1 EC2]. apply Z.leb_gt in EC2.
      assert (Hc' : forall j c n t, (j < S i)%nat -> i_tour (o j) = TDone c n t -> c = false /\ (d_bs p < d_rows p)%Z).
      { intros j c' n' t' Hj Hj2. destruct (Nat.eq_dec j i) as [->|N]; [|apply (Hc j c' n' t'); [lia | exact Hj2]].
        rewrite ET in Hj2. injection Hj2 as <- <- <-. split; [exact EC1 | exact EC2]. }
      apply IH in HL; [|exact Hd | exact Hb' | exact Hc']. destruct HL as (k & Hk & R).
      exists k. split; [lia|].
      assert (S1 : pend [tour_obj p o i] ++ pend (map (tour_obj p o) (seq (S i) (k - S i))) = pend (map (tour_obj p o) (seq i (k - i)))).
      { replace (k - i)%nat with (S (k - S i)) by lia. cbn [seq map]. symmetry. apply (pend_app [_]). }
      destruct R as [(s & R1 & R2 & R3) | (R1 & R2 & R3)].
      * left. exists s. split; [exact R1|]. split; [exact R2|]. rewrite R3, <- S1, <- !app_assoc. reflexivity.
      * right. split; [exact R1|]. split; [rewrite R2, <- S1, <- !app_assoc; reflexivity|].
        intros j Hj. destruct (Nat.eq_dec j i) as [->|N]; [exists c, n, t; exact ET | apply R3; lia].
Qed.

Lemma bkz_dump fuel p inn o post outn outt file out :
  d_dump p = true -> d_sd p && d_sld p = false ->
  bkz fuel p true inn o post outn outt file = Some out ->
  exists k,
    ((exists s, o_res out = Ret s /\ tours_done p o k s /\
       o_file out = (lit "[" ++ [c_nl]) ++ pend (obj "Input" (-1) (Fin false 0 [] None) inn :: map (tour_obj p o) (seq 0 k))
                    ++ entry "Output" (-1) outt outn) \/
     ((forall s, o_res out <> Ret s) /\
       o_file out = (lit "[" ++ [c_nl]) ++ pend (obj "Input" (-1) (Fin false 0 [] None) inn :: map (tour_obj p o) (seq 0 k)) /\
       forall j, (j < k)%nat -> exists c n t, i_tour (o j) = TDone c n t)).
Proof.
  intros Hd Hx. unfold bkz, dump_gso. rewrite Hd, Hx. 
  assert (E : (lit "[" ++ [c_nl]) ++ entry "Input" (-1) (Fin false 0 [] None) inn
              = (lit "[" ++ [c_nl]) ++ pend [obj "Input" (-1) (Fin false 0 [] None) inn]).
  { rewrite entry_obj. unfold pend. cbn [map List.concat]. rewrite app_nil_r. reflexivity. }
  rewrite E. destruct (d_bs p <? 2)%Z.
  - intros [= <-]. exists 0%nat. right. cbn [o_res o_file seq map]. split; [intros ? A; discriminate A|].
    split; [reflexivity | intros; lia].
  - intros H. apply loop_dump in H; [|exact Hd | intros; lia | intros; lia].
    destruct H as (k & _ & R). rewrite Nat.sub_0_r in R. exists k.
    destruct R as [(s & R1 & R2 & R3) | (R1 & R2 & R3)].
    + left. exists s. split; [exact R1|]. split; [exact R2|]. rewrite R3.
      rewrite (pend_app [_] (map (tour_obj p o) (seq 0 k)) : pend (_ :: _) = _), <- !app_assoc. reflexivity.
    + right. split; [exact R1|]. split; [|intros j Hj; apply R3; lia]. rewrite R2.
      rewrite (pend_app [_] (map (tour_obj p o) (seq 0 k)) : pend (_ :: _) = _), <- !app_assoc. reflexivity.
Qed.

(** ** The theorems *)

(** all numbers of the run *)
Definition numbers (P : dnum -> Prop) (inn : list dnum) (o : nat -> iter) (outn : list dnum) (outt : dnum) : Prop :=
  Forall P inn /\ Forall P outn /\ P outt /\ forall i c n t, i_tour (o i) = TDone c n t -> Forall P n /\ P t.

(** If the run gets to its end and all numbers are finite, then the file is a
    JSON document, whatever was in the file before: the array of the shapes of the
    input, after each tour, and of the output. *)
Theorem dump_is_json fuel p inn o post outn outt file out s :
  d_dump p = true ->
  numbers printed inn o outn outt -> numbers finite inn o outn outt ->
  bkz fuel p true inn o post outn outt file = Some out -> o_res out = Ret s ->
  exists k, tours_done p o k s /\
    document (o_file out) (JArr (shape "Input" (-1) (Fin false 0 [] None) inn :: map (tour_shape p o) (seq 0 k)
                                 ++ [shape "Output" (-1) outt outn])).
Proof.
  intros Hd (P1 & P2 & P3 & P4) (F1 & F2 & F3 & F4) H HR.
  destruct (d_sd p && d_sld p) eqn:Hx.
  { unfold bkz in H. rewrite Hx in H. injection H as <-. discriminate HR. }
  destruct (bkz_dump _ _ _ _ _ _ _ _ _ Hd Hx H) as (k & [(s' & R1 & R2 & R3) | (R1 & _)]); [|elim (R1 s HR)].
  rewrite HR in R1. injection R1 as <-. exists k. split; [exact R2|].
  set (es := obj "Input" (-1) (Fin false 0 [] None) inn :: map (tour_obj p o) (seq 0 k)) in *.
  set (vs := shape "Input" (-1) (Fin false 0 [] None) inn :: map (tour_shape p o) (seq 0 k)).
  assert (A : Forall2 json es vs).
  { unfold es, vs. constructor.
    - apply obj_json; [reflexivity | cbn; repeat constructor; lia | exact I | exact P1 | exact F1].
    - assert (B : forall i, In i (seq 0 k) -> exists c n t, i_tour (o i) = TDone c n t).
      { intros i Hi. apply in_seq in Hi. destruct R2 as (R2 & _). destruct (R2 i) as (_ & _ & _ & B); [lia | exact B]. }
      clear -B P4 F4. induction (seq 0 k) as [|i l IH]; cbn [map]; constructor.
      + destruct (B i) as (c & n & t & E); [left; reflexivity|]. unfold tour_obj, tour_shape. rewrite E.
        destruct (P4 _ _ _ _ E), (F4 _ _ _ _ E). apply obj_json; auto. apply loop_name_plain.
      + apply IH. intros j Hj. apply B. right. exact Hj. }
  pose proof (pend_elements es vs A _ _ (obj_json "Output" (-1) outt outn eq_refl P3 F3 P2 F2)) as E.
  exists [], (o_file out), []. split; [rewrite app_nil_r; reflexivity|]. split; [constructor|]. split; [constructor|].
  change (JArr _) with (JArr (vs ++ [shape "Output" (-1) outt outn])).
  rewrite R3, entry_obj. cbn [String.eqb Ascii.eqb Bool.eqb].
  pose proof (j_arr _ _ E) as J. cbn [app] in J |- *. rewrite <- !app_assoc in J. rewrite <- !app_assoc. exact J.
Qed.

(** ** Files that are no documents *)

Definition oo (q : option st) : Prop := q = None \/ exists q', q = Some q' /\ outer q'.
Lemma oo_run_json t v q : json t v -> oo q -> run q t = None \/ run q t = Some Out.
Proof.
  intros H [-> | (q' & -> & Hq)]; [left; apply run_none | right; exact (proj1 json_run _ _ H q' Hq)].
Qed.
Lemma oo_num x q : printed x -> oo q -> (run q (show_num x) = None \/ run q (show_num x) = Some Out) /\ (~ finite x -> run q (show_num x) = None).
Proof.
  intros P Hq. destruct x as [neg ip fs ex|neg|neg].
  - split; [apply (oo_run_json _ _ _ (show_num_json _ P I) Hq) | intros N; elim N; exact I].
  - assert (E : run q (show_num (Inf neg)) = None) by (destruct Hq as [-> | (q' & -> & [-> | ->])], neg; reflexivity).
    rewrite E. auto.
  - assert (E : run q (show_num (NaN neg)) = None) by (destruct Hq as [-> | (q' & -> & [-> | ->])], neg; reflexivity).
    rewrite E. auto.
Qed.
Lemma oo_out : oo (Some Out). Proof. right. exists Out. split; [reflexivity | left; reflexivity]. Qed.
Lemma oo_cases q : q = None \/ q = Some Out -> oo q.
Proof. intros [-> | ->]; [left; reflexivity | exact oo_out]. Qed.
Lemma oo_joined l : forall x q, Forall printed (x :: l) -> oo q ->
  (run q (joined x l) = None \/ run q (joined x l) = Some Out) /\ (~ Forall finite (x :: l) -> run q (joined x l) = None).
Proof.
  induction l as [|y l IH]; intros x q HP Hq; inversion HP as [|? ? P1 P2]; subst; cbn [joined].
  - destruct (oo_num x q P1 Hq) as [A B]. split; [exact A|]. intros N. apply B. intros F. apply N. repeat constructor. exact F.
  - destruct (oo_num x q P1 Hq) as [A B]. rewrite !run_app.
    assert (Q : oo (run (run q (show_num x)) (lit ", "))).
    { destruct A as [-> | ->]; [left; reflexivity|]. right. exists Oc. split; [reflexivity | right; reflexivity]. }
    destruct (IH y _ P2 Q) as [C D]. split; [exact C|]. intros N.
    destruct x as [neg ip fs ex| |]; try (rewrite (B (fun f => f)); apply run_none).
    apply D. intros F. apply N. constructor; [exact I | exact F].
Qed.
Lemma oo_norms l q : Forall printed l -> oo q ->
  oo (run q (cut2 (norms_stream l))) /\ (~ Forall finite l -> run q (cut2 (norms_stream l)) = None).
Proof.
  intros HP Hq. destruct l as [|x l].
  - split; [exact Hq | intros N; elim N; constructor].
  - rewrite cut_joined. destruct (oo_joined l x q HP Hq) as [A B]. split; [apply oo_cases; exact A | exact B].
Qed.
Lemma stp_step t step : plain step = true -> run (Some Ins) (lit step ++ t) = run (Some Ins) t.
Proof. intros H. rewrite run_app, (run_sbody _ _ (plain_sbody _ H)). reflexivity. Qed.
(** from outside a string, an entry ends outside of strings *)
Lemma oo_obj step lp time norms q : plain step = true -> printed time -> Forall printed norms -> oo q ->
  (run q (obj step lp time norms) = None \/ run q (obj step lp time norms) = Some Out) /\
  (~ Forall finite norms -> run q (obj step lp time norms) = None).
Proof.
  intros Hs Pt Pn Hq.
  pose (a := lit "{" ++ [c_nl] ++ sp 16 ++ [c_quote] ++ lit "step" ++ [c_quote] ++ lit ": " ++ [c_quote]).
  pose (b := [c_quote] ++ lit "," ++ [c_nl] ++ sp 16 ++ [c_quote] ++ lit "loop" ++ [c_quote] ++ lit ": ").
  pose (c := lit "," ++ [c_nl] ++ sp 16 ++ [c_quote] ++ lit "time" ++ [c_quote] ++ lit ": ").
  pose (d := lit "," ++ [c_nl] ++ sp 16 ++ [c_quote] ++ lit "norms" ++ [c_quote] ++ lit ": [").
  pose (e := lit "]" ++ [c_nl] ++ sp 8 ++ lit "}").
  assert (E : obj step lp time norms = a ++ lit step ++ b ++ show_z lp ++ c ++ show_num time ++ d ++ cut2 (norms_stream norms) ++ e).
  { unfold obj, a, b, c, d, e. rewrite <- !app_assoc. reflexivity. }
  rewrite E, run_app. clear E.
  destruct Hq as [-> | (q' & -> & Hq)].
  { rewrite !run_none. auto. }
  replace (run (Some q') a) with (Some Ins) by (destruct Hq as [-> | ->]; reflexivity).
  rewrite (stp_step _ _ Hs), run_app. change (run (Some Ins) b) with (Some Out).
  rewrite run_app, (proj1 json_run _ _ (show_z_json lp) Out (or_introl eq_refl)), run_app.
  change (run (Some Out) c) with (Some Out). rewrite run_app.
  destruct (oo_num time (Some Out) Pt oo_out) as [[-> | ->] _].
  { rewrite !run_none. auto. }
  rewrite run_app. change (run (Some Out) d) with (Some Out). rewrite run_app.
  destruct (oo_norms norms (Some Out) Pn oo_out) as [A B]. split.
  - destruct A as [-> | (q2 & -> & [-> | ->])]; [left; apply run_none | right; reflexivity | right; reflexivity].
  - intros N. rewrite (B N). apply run_none.
Qed.
Definition okc (q : option st) : Prop := q = None \/ q = Some Oc.
Lemma sp8_run q : oo q -> oo (run q (sp 8)).
Proof. intros [-> | (q' & -> & [-> | ->])]; [left; reflexivity | |]; right; eexists; (split; [reflexivity|]); [left | right]; reflexivity. Qed.
Lemma comma_run q : q = None \/ q = Some Out -> okc (run q (lit "," ++ [c_nl])).
Proof. intros [-> | ->]; [left; reflexivity | right; reflexivity]. Qed.
Lemma okc_oo q : okc q -> oo q.
Proof. intros [-> | ->]; [left; reflexivity | right; exists Oc; split; [reflexivity | right; reflexivity]]. Qed.
Lemma pend_run l : (forall e, In e l -> forall q, oo q -> run q e = None \/ run q e = Some Out) ->
  forall q, oo q -> l <> [] -> okc (run q (pend l)).
Proof.
  induction l as [|e l IH]; intros H q Hq N; [congruence|]. unfold pend. cbn [map List.concat]. fold (pend l).
  rewrite !run_app.
  pose proof (H e (or_introl eq_refl) _ (sp8_run q Hq)) as A.
  pose proof (comma_run _ A) as B. rewrite run_app in B.
  destruct l as [|e' l]; [exact B|].
  apply IH; [intros x Hx; apply H; right; exact Hx | apply okc_oo; exact B | discriminate].
Qed.
Lemma pend_all p o inn k :
  Forall printed inn -> (forall i c n t, i_tour (o i) = TDone c n t -> Forall printed n /\ printed t) ->
  (forall j, (j < k)%nat -> exists c n t, i_tour (o j) = TDone c n t) ->
  forall e, In e (obj "Input" (-1) (Fin false 0 [] None) inn :: map (tour_obj p o) (seq 0 k)) ->
  forall q, oo q -> run q e = None \/ run q e = Some Out.
Proof.
  intros P1 P4 R e [<- | Hin] q Hq.
  - apply oo_obj; [reflexivity | cbn; repeat constructor; lia | exact P1 | exact Hq].
  - apply in_map_iff in Hin. destruct Hin as (i & <- & Hi). apply in_seq in Hi.
    destruct (R i) as (c & n & t & E); [lia|]. unfold tour_obj. rewrite E.
    destruct (P4 _ _ _ _ E) as [A B]. apply oo_obj; [apply loop_name_plain | exact B | exact A | exact Hq].
Qed.

(** If the run does not get to its end, be it by an exception, be it because the
    block size is below 2, then the file is no JSON document at all. *)
Theorem dump_unfinished_not_json fuel p inn o post outn outt file out :
  d_dump p = true -> d_sd p && d_sld p = false ->
  numbers printed inn o outn outt ->
  bkz fuel p true inn o post outn outt file = Some out -> (forall s, o_res out <> Ret s) ->
  forall v, ~ document (o_file out) v.
Proof.
  intros Hd Hx (P1 & _ & _ & P4) H HR v HD. apply document_run in HD.
  destruct (bkz_dump _ _ _ _ _ _ _ _ _ Hd Hx H) as (k & [(s & R1 & _) | (_ & R2 & R3)]); [elim (HR s R1)|].
  rewrite R2, run_app in HD. change (run (Some Out) (lit "[" ++ [c_nl])) with (Some Out) in HD.
  destruct (pend_run _ (pend_all p o inn k P1 P4 R3) (Some Out) oo_out ltac:(discriminate)) as [E | E]; congruence.
Qed.

(** If a number of the input or of the output is infinite or not a number, then
    the file is no JSON document. *)
Theorem dump_infinite_not_json fuel p inn o post outn outt file out :
  d_dump p = true -> d_sd p && d_sld p = false ->
  numbers printed inn o outn outt ->
  bkz fuel p true inn o post outn outt file = Some out ->
  ~ Forall finite inn \/ ~ Forall finite outn ->
  forall v, ~ document (o_file out) v.
Proof.
  intros Hd Hx HP H N v HD.
  destruct (bkz_dump _ _ _ _ _ _ _ _ _ Hd Hx H) as (k & [(s & R1 & R2 & R3) | (R1 & _)]).
  2: { exact (dump_unfinished_not_json _ _ _ _ _ _ _ _ _ Hd Hx HP H R1 v HD). }
  destruct HP as (P1 & P2 & P3 & P4). apply document_run in HD. rewrite R3, run_app in HD.
  change (run (Some Out) (lit "[" ++ [c_nl])) with (Some Out) in HD.
  assert (T : forall j, (j < k)%nat -> exists c n t, i_tour (o j) = TDone c n t).
  { intros j Hj. destruct R2 as (R2 & _). apply R2. exact Hj. }
  destruct N as [N | N].
  - unfold pend in HD. cbn [map List.concat] in HD. rewrite !run_app in HD.
    destruct (oo_obj "Input" (-1) (Fin false 0 [] None) inn (run (Some Out) (sp 8)) eq_refl) as [_ B];
      [cbn; repeat constructor; lia | exact P1 | apply sp8_run, oo_out |].
    rewrite (B N), !run_none in HD. discriminate HD.
  - rewrite run_app, entry_obj, !run_app in HD.
    assert (Q : oo (run (run (Some Out) (pend (obj "Input" (-1) (Fin false 0 [] None) inn :: map (tour_obj p o) (seq 0 k)))) (sp 8))).
    { apply sp8_run, okc_oo. apply pend_run; [exact (pend_all p o inn k P1 P4 T) | exact oo_out | discriminate]. }
    destruct (oo_obj "Output" (-1) outt outn _ eq_refl P3 P2 Q) as [_ B].
    rewrite (B N), !run_none in HD. discriminate HD.
Qed.

(** Without the flag the file is not touched. *)
Lemma loop_no_dump fuel : forall p o post outn outt i file err out, d_dump p = false ->
  loop fuel p true o post outn outt i file err = Some out -> o_file out = file.
Proof.
  assert (F : forall p i post outn outt file err fin, d_dump p = false -> o_file (finish p true i post outn outt file err fin) = file).
  { intros p i post outn outt file err fin Hd. unfold finish. rewrite Hd. destruct (d_sd p || d_sld p); [destruct post|]; reflexivity. }
  induction fuel as [|fuel IH]; intros p o post outn outt i file err out Hd; [discriminate|]. cbn [loop]. rewrite Hd.
  destruct (match d_loops p with Some m => (m <=? Z.of_nat i)%Z | None => false end); [intros [= <-]; apply F, Hd|].
  destruct (d_time p && i_time (o i)); [intros [= <-]; apply F, Hd|].
  destruct ((d_abort p || forced_abort p) && i_abort (o i)); [intros [= <-]; apply F, Hd|].
  destruct (i_tour (o i)) as [e| |c n t]; [intros [= <-]; reflexivity | intros [= <-]; reflexivity|].
  destruct (c || (d_rows p <=? d_bs p)%Z); [intros [= <-]; apply F, Hd | apply IH, Hd].
Qed.
Theorem no_dump_no_file fuel p inn o post outn outt file out :
  d_dump p = false -> bkz fuel p true inn o post outn outt file = Some out -> o_file out = file.
Proof.
  intros Hd. unfold bkz. rewrite Hd. destruct (d_sd p && d_sld p); [intros [= <-]; reflexivity|].
  destruct (d_bs p <? 2)%Z; [intros [= <-]; reflexivity | apply loop_no_dump, Hd].
Qed.

(** Without BKZ_VERBOSE, without the warning on SD-BKZ, and without the flag of
    the dump, nothing is written on the error stream. *)
Lemma loop_quiet fuel : forall p o post outn outt i file out, d_verbose p = false ->
  d_dump p = false \/ (d_sd p = false /\ d_sld p = false) ->
  loop fuel p true o post outn outt i file [] = Some out -> o_err out = [].
Proof.
  assert (F : forall p i post outn outt file fin, d_verbose p = false ->
    d_dump p = false \/ (d_sd p = false /\ d_sld p = false) -> o_err (finish p true i post outn outt file [] fin) = []).
  { intros p i post outn outt file fin Hv Hq. unfold finish, status_line, dump_gso. rewrite Hv.
    destruct Hq as [-> | [-> ->]]; [destruct (d_sd p || d_sld p), post; reflexivity | cbn; destruct (d_dump p); reflexivity]. }
  induction fuel as [|fuel IH]; intros p o post outn outt i file out Hv Hq; [discriminate|]. cbn [loop].
  destruct (match d_loops p with Some m => (m <=? Z.of_nat i)%Z | None => false end); [intros [= <-]; apply F; assumption|].
  destruct (d_time p && i_time (o i)); [intros [= <-]; apply F; assumption|].
  destruct ((d_abort p || forced_abort p) && i_abort (o i)); [intros [= <-]; apply F; assumption|].
  destruct (i_tour (o i)) as [e| |c n t];
    [intros [= <-]; cbn; unfold status_line; rewrite Hv; reflexivity | intros [= <-]; reflexivity|].
  rewrite Hv. cbn [app]. unfold dump_gso.
  destruct (d_dump p) eqn:Hd; destruct (c || (d_rows p <=? d_bs p)%Z); intros H;
    first [apply (IH p o post outn outt (S i) _ out Hv) in H; [exact H | rewrite Hd; exact Hq]
          | injection H as <-; apply F; [exact Hv | rewrite Hd; exact Hq]].
Qed.
Theorem quiet_right fuel p inn o post outn outt file out :
  d_verbose p = false ->
  (d_sd p = true -> d_loops p <> None \/ d_time p = true \/ d_abort p = true) ->
  d_dump p = false \/ (d_sd p = false /\ d_sld p = false) ->
  bkz fuel p true inn o post outn outt file = Some out -> o_err out = [].
Proof.
  intros Hv Hl Hq. unfold bkz.
  assert (A : forced_abort p = false).
  { unfold forced_abort. destruct (d_sd p); [|reflexivity].
    destruct (d_loops p); [reflexivity|]. destruct (Hl eq_refl) as [N | [-> | ->]]; [congruence | reflexivity | cbn; destruct (d_time p); reflexivity]. }
  rewrite A, Hv. cbn [app]. unfold dump_gso, status_line. rewrite Hv.
  destruct (d_sd p && d_sld p); [intros [= <-]; reflexivity|].
  destruct (d_dump p) eqn:Hd; destruct (d_bs p <? 2)%Z;
    first [intros [= <-]; reflexivity | apply loop_quiet; auto].
  all: rewrite Hd; exact Hq.
Qed.

(** *** Refuted: a run that reports success leaves a JSON file. *)
Ltac pr := cbn; repeat match goal with
  | |- _ /\ _ => split
  | |- Forall _ _ => constructor
  | |- True => exact I
  | |- _ <> [] => discriminate
  | |- forall i c n t, _ = _ -> _ => intros ? ? ? ? [= <- <- <-]; cbn
  | |- printed _ => cbn
  | |- finite _ => exact I
  | |- _ => lia
  end.
Definition p_small : dpar := mkdp true false false false None false false 1 3.
Definition six : dnum := Fin false 6 [9; 3]%nat None.
Definition it_done : iter := mkit false false (TDone true [six; Fin false 5 [2]%nat None] (Fin false 1 [] (Some (true, [0; 5]%nat)))).
Theorem dump_success_json_refuted :
  exists p out, d_dump p = true /\ (1 <= d_bs p)%Z /\
    bkz 5 p true [six; six] (fun _ => it_done) PDone [six; six] six [] = Some out /\
    o_res out = Early /\ o_err out = status_line p 0 /\ forall v, ~ document (o_file out) v.
Proof.
  exists p_small. eexists. split; [reflexivity|]. split; [cbn; lia|]. split; [reflexivity|].
  split; [reflexivity|]. split; [reflexivity|]. intros v.
  apply (dump_unfinished_not_json 5 p_small [six; six] (fun _ => it_done) PDone [six; six] six []); try reflexivity.
  - unfold numbers. pr.
  - intros s. discriminate.
Qed.
(** *** Refuted: without BKZ_VERBOSE a run with limits writes nothing on the error
    stream (bkz.cpp:632-635 and 656-659 test the flag of the dump). *)
Definition p_sd : dpar := mkdp true false true false (Some 4%Z) false false 2 3.
Theorem quiet_refuted :
  exists p out, d_verbose p = false /\ d_loops p <> None /\
    bkz 5 p true [six; six] (fun _ => it_done) PDone [six; six] six [] = Some out /\
    o_res out = Ret 0 /\ o_err out = [ETour 0].
Proof. exists p_sd. eexists. split; [reflexivity|]. split; [discriminate|]. split; [reflexivity|]. split; reflexivity. Qed.

(** the number of bkz.cpp:773-775 in exact arithmetic: log r + expo * log 2 *)
Definition dumped (r : R) (expo : Z) : R := (ln r + IZR expo * ln 2)%R.
(** It is the logarithm of the squared norm of the Gram-Schmidt vector. *)
Theorem dumped_right (n r : R) (expo : nat) :
  (0 < n)%R -> (0 < r)%R -> (n * n = r * 2 ^ expo)%R -> dumped r (Z.of_nat expo) = (2 * ln n)%R.
Proof.
  intros Hn Hr E. unfold dumped. rewrite <- INR_IZR_INZ, <- ln_pow by lra.
  rewrite <- ln_mult by (try apply pow_lt; lra). rewrite <- E, ln_mult by lra. lra.
Qed.
(** Refuted: README.md:278, the file has the logarithms of the norms. *)
Theorem dumped_norm_refuted : exists (n r : R) (expo : nat),
  (0 < n)%R /\ (0 < r)%R /\ (n * n = r * 2 ^ expo)%R /\ dumped r (Z.of_nat expo) <> ln n.
Proof.
  exists 2%R, 1%R, 2%nat. split; [lra|]. split; [lra|]. split; [cbn; lra|].
  rewrite (dumped_right 2 1 2) by (cbn; lra). intros E.
  pose proof (ln_lt_2) as L. lra.
Qed.

(** ** Examples: the hypotheses are met *)

Definition p_run : dpar := mkdp true false false false (Some 2%Z) false false 2 3.
Definition it_more : iter := mkit false false (TDone false [six] (Fin true 0 [2; 5]%nat None)).
Definition o_run (i : nat) : iter := it_more.
Example ex91_numbers : numbers printed [six; six] o_run [six] six /\ numbers finite [six; six] o_run [six] six.
Proof.
  split; unfold numbers; pr.
Qed.
Example ex91_run : exists out, bkz 5 p_run true [six; six] o_run PDone [six] six (lit "old") = Some out /\
  o_res out = Ret 8 /\ o_err out = [] /\ List.length (o_file out) = 602%nat.
Proof. eexists. split; [reflexivity|]. split; [reflexivity|]. split; vm_compute; reflexivity. Qed.
Example ex91_entry : entry "Input" (-1) (Fin false 0 [] None) [six; Fin true 1 [5]%nat (Some (false, [1; 0]%nat))] =
  lit "        {" ++ [c_nl] ++ lit "                ""step"": ""Input""," ++ [c_nl] ++ lit "                ""loop"": -1," ++ [c_nl]
  ++ lit "                ""time"": 0," ++ [c_nl] ++ lit "                ""norms"": [6.93, -1.5e+10]" ++ [c_nl] ++ lit "        }," ++ [c_nl].
Proof. vm_compute. reflexivity. Qed.
Example ex91_inf : ~ Forall finite [six; Inf true] /\ Forall printed [six; Inf true].
Proof. split; [intros H; inversion H as [|? ? _ H2]; inversion H2; contradiction | repeat constructor; lia]. Qed.
Example ex91_throw : exists out, bkz 5 p_run true [six; six] (fun _ => mkit false false TExc) PDone [six] six [] = Some out /\ o_res out = Exc.
Proof. eexists. split; reflexivity. Qed.
Example ex91_quiet : exists out, bkz 5 (mkdp false false true false (Some 2%Z) false false 2 3) true [] o_run PDone [] six [] = Some out /\
  o_res out = Ret 8 /\ o_err out = [] /\ o_file out = [].
Proof. eexists. split; [reflexivity|]. repeat split; reflexivity. Qed.
Example ex91_dumped : (0 < 3)%R /\ (0 < 9 / 8)%R /\ (3 * 3 = 9 / 8 * 2 ^ 3)%R.
Proof. repeat split; lra. Qed.

Print Assumptions dump_is_json.
Print Assumptions dump_unfinished_not_json.
Print Assumptions dump_infinite_not_json.
Print Assumptions no_dump_no_file.
Print Assumptions quiet_right.
Print Assumptions dump_success_json_refuted.
Print Assumptions quiet_refuted.
Print Assumptions dumped_right.
Print Assumptions dumped_norm_refuted.
