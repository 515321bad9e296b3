(** C87: the functions that read out the coefficients of a GSO object. *)
From Coq Require Import List ZArith Arith Lia Bool QArith Qcanon.
From Verif Require Import Util QcUtil LatticeSpec NumVectModel MatrixModel MatrixProofs GsoModel GsoProofs GsoFModel GsoFProofs GsoQ PropGsoF GsoReadModel.
Import ListNotations.
Local Open Scope nat_scope.

(** *** Loops that write *)
Lemma ofor_fail {S} (f : nat -> S -> option S) k : forall l s, In k l -> (forall s, f k s = None) -> ofor l f s = None.
Proof.
  induction l as [|i l IH]; intros s Hk Hf; [destruct Hk|]. cbn [ofor]. destruct Hk as [->|Hk]; [now rewrite Hf|]. destruct (f i s) as [s'|]; [|reflexivity]. cbn [obind]. now apply IH.
Qed.
Section W.
Variable D : Type.
Lemma write_loop (f : nat -> option D) (v : nat -> D) base : forall c s (buf : list D), (forall j, s <= j < s + c -> f j = Some (v j)) -> base + s + c <= length buf ->
  exists buf', ofor (seq s c) (fun j b => e <- f j;; put D b (base + j) e) buf = Some buf' /\ length buf' = length buf /\
    forall k, nth_error buf' k = if (base + s <=? k) && (k <? base + s + c) then Some (v (k - base)) else nth_error buf k.
Proof.
  induction c as [|c IH]; intros s buf Hf Hl; cbn [seq ofor].
  - exists buf. split; [reflexivity|]. split; [reflexivity|]. intros k. destruct (Nat.leb_spec (base + s) k); destruct (Nat.ltb_spec k (base + s + 0)); try reflexivity. lia.
  - rewrite Hf by lia. cbn [obind]. unfold put at 1. destruct (Nat.ltb_spec (base + s) (length buf)); [|lia].
    destruct (IH (S s) (upd buf (base + s) (v s))) as [b' [E [L H']]]; [intros j Hj; apply Hf; lia|rewrite upd_length; lia|].
    exists b'. split; [exact E|]. split; [now rewrite L, upd_length|]. intros k. rewrite H', nth_error_upd. destruct (Nat.ltb_spec (base + s) (length buf)); [|lia]. rewrite andb_true_r.
    destruct (Nat.leb_spec (base + S s) k); destruct (Nat.ltb_spec k (base + S s + c)); destruct (Nat.leb_spec (base + s) k); destruct (Nat.ltb_spec k (base + s + S c)); cbn [andb]; try lia; try reflexivity;
      destruct (Nat.eqb_spec k (base + s)) as [->|]; try lia; try reflexivity. f_equal. f_equal. lia.
Qed.
Lemma write_short (f : nat -> option D) n : forall (buf : list D), length buf < n -> ofor (seq 0 n) (fun j b => e <- f j;; put D b j e) buf = None.
Proof.
  intros buf Hb. assert (G : forall m s (b : list D), length b = length buf -> s <= length buf < s + m -> ofor (seq s m) (fun j b => e <- f j;; put D b j e) b = None).
  { induction m as [|m IH]; intros s b Lb Hs; [lia|]. cbn [seq ofor]. destruct (f s) as [e|]; [|reflexivity]. cbn [obind]. unfold put. destruct (Nat.ltb_spec s (length b)); [|reflexivity]. cbn [obind].
    apply IH; [now rewrite upd_length|lia]. }
  apply G; lia.
Qed.
End W.

Section P.
Variable fo : fops.
Variable en_e : bool.
Variable D : Type.
Variable to_d : F fo -> D.

(** the rewritten loops *)
Lemma bind_put (g : option (F fo)) (b : list D) k : (e <- g;; put D b k (to_d e)) = (e <- option_map to_d g;; put D b k e).
Proof. destruct g; reflexivity. Qed.
Lemma ofor_ext {S} (f g : nat -> S -> option S) : (forall k s, f k s = g k s) -> forall l s, ofor l f s = ofor l g s.
Proof. intros H. induction l as [|k l IH]; intros s; cbn [ofor]; [reflexivity|]. rewrite H. destruct (g k s); cbn [obind]; auto. Qed.

(** C87: dump_mu_d for a pointer writes the block of mu row by row and nothing else *)
Theorem dump_mu_right : forall zs buf off bs (V : nat -> nat -> F fo), let n := block (fst zs) bs in
  (forall i j, i < n -> j < n -> get_mu fo en_e zs (off + i) (off + j) = Some (V i j)) -> n * n <= length buf ->
  exists buf', dump_mu_ptr fo en_e D to_d zs buf off bs = Some buf' /\ length buf' = length buf /\
    (forall i j, i < n -> j < n -> nth_error buf' (i * n + j) = Some (to_d (V i j))) /\
    (forall k, n * n <= k -> nth_error buf' k = nth_error buf k).
Proof.
  intros zs buf off bs V n HV HL. unfold dump_mu_ptr. cbv zeta. fold n.
  assert (G : forall m s b, s + m = n -> length b = length buf -> (forall i j, i < s -> j < n -> nth_error b (i * n + j) = Some (to_d (V i j))) -> (forall k, s * n <= k -> nth_error b k = nth_error buf k) ->
    exists buf', ofor (seq s m) (fun i mu => ofor (seq 0 n) (fun j mu => e <- get_mu fo en_e zs (off + i) (off + j);; put D mu (i * n + j) (to_d e)) mu) b = Some buf' /\ length buf' = length buf /\
    (forall i j, i < n -> j < n -> nth_error buf' (i * n + j) = Some (to_d (V i j))) /\ (forall k, n * n <= k -> nth_error buf' k = nth_error buf k)).
  { induction m as [|m IH]; intros s b Hs Lb H1 H2; cbn [seq ofor].
    - exists b. split; [reflexivity|]. split; [exact Lb|]. split; [intros i j Hi Hj; apply H1; lia|]. intros k Hk. apply H2. replace s with n by lia. exact Hk.
    - rewrite (ofor_ext _ (fun j mu => e <- option_map to_d (get_mu fo en_e zs (off + s) (off + j));; put D mu (s * n + j) e)) by (intros k mu; apply bind_put).
      assert (SN : S s * n <= n * n) by (apply Nat.mul_le_mono_r; lia).
      destruct (write_loop D (fun j => option_map to_d (get_mu fo en_e zs (off + s) (off + j))) (fun j => to_d (V s j)) (s * n) n 0 b) as [b' [E [L H]]].
      + intros j Hj. rewrite HV by lia. reflexivity.
      + rewrite Lb. cbn [mult] in SN. lia.
      + rewrite E. cbn [obind]. apply IH; [lia|congruence| |].
        * intros i j Hi Hj. rewrite H. destruct (Nat.eq_dec i s) as [->|Ne].
          -- destruct (Nat.leb_spec (s * n + 0) (s * n + j)); [|lia]. destruct (Nat.ltb_spec (s * n + j) (s * n + 0 + n)); [|lia]. cbn [andb]. do 3 f_equal. lia.
          -- assert (S i * n <= s * n) by (apply Nat.mul_le_mono_r; lia). cbn [mult] in H0. destruct (Nat.leb_spec (s * n + 0) (i * n + j)); [lia|]. cbn [andb]. apply H1; lia.
        * intros k Hk. cbn [mult] in Hk. rewrite H. destruct (Nat.ltb_spec k (s * n + 0 + n)); [lia|]. rewrite andb_false_r. apply H2. lia. }
  apply (G n 0 buf); auto. intros i j Hi. lia.
Qed.
(** C87: dump_r_d for a pointer writes the diagonal of r and nothing else; it is defined only if
    the buffer holds the block *)
Theorem dump_r_right : forall zs buf off bs (V : nat -> F fo), let n := block (fst zs) bs in
  (forall i, i < n -> get_r fo en_e zs (off + i) (off + i) = Some (V i)) ->
  (n <= length buf -> exists buf', dump_r_ptr fo en_e D to_d zs buf off bs = Some buf' /\ length buf' = length buf /\
    (forall i, i < n -> nth_error buf' i = Some (to_d (V i))) /\ (forall k, n <= k -> nth_error buf' k = nth_error buf k)) /\
  (length buf < n -> dump_r_ptr fo en_e D to_d zs buf off bs = None) /\
  dump_r_vec fo en_e D to_d zs buf off bs = Some (buf ++ map (fun i => to_d (V i)) (seq 0 n)).
Proof.
  intros zs buf off bs V n HV. split; [|split].
  - intros HL. unfold dump_r_ptr. cbv zeta. fold n. rewrite (ofor_ext _ (fun i r => e <- option_map to_d (get_r fo en_e zs (off + i) (off + i));; put D r (0 + i) e)) by (intros k mu; apply bind_put).
    destruct (write_loop D (fun i => option_map to_d (get_r fo en_e zs (off + i) (off + i))) (fun i => to_d (V i)) 0 n 0 buf) as [b' [E [L H]]]; [intros j Hj; rewrite HV by lia; reflexivity|lia|].
    exists b'. split; [exact E|]. split; [exact L|]. split; intros i Hi; rewrite H.
    + destruct (Nat.ltb_spec i (0 + 0 + n)); [|lia]. cbn [andb plus Nat.leb]. do 3 f_equal. lia.
    + destruct (Nat.ltb_spec i (0 + 0 + n)); [lia|]. now rewrite andb_false_r.
  - intros HL. unfold dump_r_ptr. cbv zeta. fold n. rewrite (ofor_ext _ (fun i r => e <- option_map to_d (get_r fo en_e zs (off + i) (off + i));; put D r i e)) by (intros k mu; apply bind_put).
    now apply write_short.
  - unfold dump_r_vec. cbv zeta. fold n.
    assert (G : forall m s b, s + m <= n -> ofor (seq s m) (fun i r => e <- get_r fo en_e zs (off + i) (off + i);; Some (r ++ [to_d e])) b = Some (b ++ map (fun i => to_d (V i)) (seq s m))).
    { induction m as [|m IH]; intros s b Hs; cbn [seq ofor map]; [now rewrite app_nil_r|]. rewrite HV by lia. cbn [obind]. rewrite IH by lia. now rewrite <- app_assoc. }
    apply G. lia.
Qed.
(** C87: with an offset and the default block size every one of them leaves the matrix *)
Theorem default_block_out_of_range : forall zs buf off bs, (bs <= 0)%Z -> 0 < off -> 0 < gd (fst zs) -> length (fmu (snd zs)) = gd (fst zs) -> length (fr (snd zs)) = gd (fst zs) ->
  dump_mu_ptr fo en_e D to_d zs buf off bs = None /\ dump_mu_vec fo en_e D to_d zs buf off bs = None /\
  dump_r_ptr fo en_e D to_d zs buf off bs = None /\ dump_r_vec fo en_e D to_d zs buf off bs = None.
Proof.
  intros [z s] buf off bs Hb Ho Hd Hm Hr. cbn [fst snd] in *.
  assert (B : block z bs = gd z) by (unfold block; destruct (Z.leb_spec bs 0); [reflexivity|lia]).
  assert (M : forall j, get_mu fo en_e (z, s) (off + (gd z - 1)) j = None).
  { intros j. unfold get_mu, get_mu_exp, mget. assert (N : nth_error (fmu s) (off + (gd z - 1)) = None) by (apply nth_error_None; lia). now rewrite N. }
  assert (R : forall j, get_r fo en_e (z, s) (off + (gd z - 1)) j = None).
  { intros j. unfold get_r, get_r_exp, mget. assert (N : nth_error (fr s) (off + (gd z - 1)) = None) by (apply nth_error_None; lia). now rewrite N. }
  assert (I : In (gd z - 1) (seq 0 (gd z))) by (apply in_seq; lia). assert (I0 : In 0 (seq 0 (gd z))) by (apply in_seq; lia).
  unfold dump_mu_ptr, dump_mu_vec, dump_r_ptr, dump_r_vec. cbv zeta. cbn [fst]. rewrite B. split; [|split; [|split]].
  - apply ofor_fail with (gd z - 1); [exact I|]. intros b. apply ofor_fail with 0; [exact I0|]. intros b'. now rewrite M.
  - rewrite ofor_fail with (k := gd z - 1); [reflexivity|exact I|]. intros b. apply ofor_fail with 0; [exact I0|]. intros b'. now rewrite M.
  - apply ofor_fail with (gd z - 1); [exact I|]. intros b. now rewrite R.
  - apply ofor_fail with (gd z - 1); [exact I|]. intros b. now rewrite R.
Qed.

(** *** Maxima *)
Section M.
Variable fle : F fo -> F fo -> bool.
Variable to_z : F fo -> Z.
Variable total : forall a b, fle a b = true \/ fle b a = true.
Variable trans : forall a b c, fle a b = true -> fle b c = true -> fle a c = true.
Lemma max_loop (g : nat -> option (F fo)) : forall m s t, (forall i, s <= i < s + m -> exists x, g i = Some x) ->
  exists w, ofor (seq s m) (fun i t => x <- g i;; Some (max_f fo fle t x)) t = Some w /\ fle t w = true /\ (forall i x, s <= i < s + m -> g i = Some x -> fle x w = true) /\
    (w = t \/ exists i, s <= i < s + m /\ g i = Some w).
Proof.
  induction m as [|m IH]; intros s t Hg; cbn [seq ofor].
  - exists t. split; [reflexivity|]. split; [now destruct (total t t)|]. split; [intros; lia|now left].
  - destruct (Hg s ltac:(lia)) as [x Hx]. rewrite Hx. cbn [obind]. destruct (IH (S s) (max_f fo fle t x)) as [w [E [L [U A]]]]; [intros i Hi; apply Hg; lia|].
    assert (T : fle t (max_f fo fle t x) = true /\ fle x (max_f fo fle t x) = true).
    { unfold max_f. destruct (fle t x) eqn:C; [split; [exact C|now destruct (total x x)]|]. destruct (total t x) as [X|X]; [congruence|]. split; [now destruct (total t t)|exact X]. }
    exists w. split; [exact E|]. split; [eapply trans; [apply T|exact L]|]. split.
    + intros i y Hi Hy. destruct (Nat.eq_dec i s) as [->|]; [|apply (U i y); [lia|exact Hy]]. rewrite Hx in Hy. injection Hy as <-. eapply trans; [apply T|exact L].
    + destruct A as [->|[i [Hi Hw]]]; [|right; exists i; split; [lia|exact Hw]]. unfold max_f. destruct (fle t x); [right; exists s; split; [lia|exact Hx]|now left].
Qed.
(** C87: without row exponents get_max_bstar is the largest of the r(i,i) of the known rows *)
Theorem max_bstar_right : forall zs, en_e = false -> 0 < nkr (fst zs) -> (forall i, i < nkr (fst zs) -> exists x, get_r fo en_e zs i i = Some x) ->
  exists m, get_max_bstar fo fle zs = Some m /\ (exists i, i < nkr (fst zs) /\ get_r fo en_e zs i i = Some m) /\
    forall i x, i < nkr (fst zs) -> get_r fo en_e zs i i = Some x -> fle x m = true.
Proof.
  intros [z s] He Hk Hr. cbn [fst] in *. subst en_e.
  assert (G : forall i, get_r fo false (z, s) i i = mget (fr s) i i) by (intros i; unfold get_r, get_r_exp; destruct (mget (fr s) i i); reflexivity).
  unfold get_max_bstar. destruct (Hr 0 Hk) as [x0 H0]. rewrite G in H0. rewrite H0. cbn [obind].
  destruct (max_loop (fun i => mget (fr s) i i) (nkr z) 0 x0) as [w [E [L [U A]]]]; [intros i Hi; rewrite <- G; apply Hr; lia|].
  exists w. split; [exact E|]. split.
  - destruct A as [->|[i [Hi Hw]]]; [exists 0; rewrite G; auto|exists i; rewrite G; split; [lia|exact Hw]].
  - intros i x Hi Hx. rewrite G in Hx. apply (U i x); [lia|exact Hx].
Qed.
(** C87: with an integer Gram matrix get_max_gram is the largest squared norm of the known rows *)
Theorem max_gram_right : forall zs, Inv (fst zs) -> en_g (fst zs) = true -> 0 < nkr (fst zs) ->
  exists m, get_max_gram fo fle to_z zs = Some m /\
    (exists i, i < nkr (fst zs) /\ m = inner (gc (fst zs)) (nth i (gb (fst zs)) []) (nth i (gb (fst zs)) [])) /\
    forall i, i < nkr (fst zs) -> (inner (gc (fst zs)) (nth i (gb (fst zs)) []) (nth i (gb (fst zs)) []) <= m)%Z.
Proof.
  intros [z s] HI Hg Hk. cbn [fst] in *. destruct (I_g _ HI Hg) as [_ [[DL DR] HG]]. destruct (I_known _ HI) as [_ [Hd _]].
  assert (G : forall i, i < nkr z -> mget (gg z) i i = Some (inner (gc z) (nth i (gb z) []) (nth i (gb z) []))).
  { intros i Hi. rewrite <- HG by assumption. unfold mget. rewrite (nth_error_nth' (gg z) []) by lia. cbn [obind]. rewrite (nth_error_nth' _ 0%Z) by (rewrite DR; lia).
    f_equal. unfold sg. destruct (i <=? i); reflexivity. }
  set (N := fun i => inner (gc z) (nth i (gb z) []) (nth i (gb z) [])) in *. unfold get_max_gram. rewrite Hg, (G 0 Hk). cbn [obind].
  assert (L : forall m k t, k + m <= nkr z -> exists w, ofor (seq k m) (fun i t => x <- mget (gg z) i i;; Some (max_z t x)) t = Some w /\ (t <= w)%Z /\ (forall i, k <= i < k + m -> (N i <= w)%Z) /\
      (w = t \/ exists i, k <= i < k + m /\ w = N i)).
  { induction m as [|m IH]; intros k t Hm; cbn [seq ofor]; [exists t; split; [reflexivity|]; split; [lia|]; split; [intros; lia|now left]|].
    rewrite G by lia. cbn [obind]. destruct (IH (S k) (max_z t (N k)) ltac:(lia)) as [w [E [W1 [W2 W3]]]]. assert (T : (t <= max_z t (N k))%Z /\ (N k <= max_z t (N k))%Z) by (unfold max_z; destruct (Z.leb_spec t (N k)); lia).
    exists w. split; [exact E|]. split; [lia|]. split; [intros i Hi; destruct (Nat.eq_dec i k) as [->|]; [lia|apply W2; lia]|].
    destruct W3 as [->|[i [Hi ->]]]; [|right; exists i; split; [lia|reflexivity]]. unfold max_z. destruct (Z.leb_spec t (N k)); [right; exists k; split; [lia|reflexivity]|now left]. }
  destruct (L (nkr z) 0 (N 0) ltac:(lia)) as [w [E [W1 [W2 W3]]]]. exists w. split; [exact E|]. split; [|intros i Hi; apply W2; lia].
  destruct W3 as [->|[i [Hi ->]]]; [exists 0; split; [lia|reflexivity]|exists i; split; [lia|reflexivity]].
Qed.
End M.
End P.

(** *** Instances *)
Definition qle (a b : Qc) : bool := if Qclt_le_dec b a then false else true.
Lemma qle_le a b : qle a b = true <-> (a <= b)%Qc.
Proof. unfold qle. destruct (Qclt_le_dec b a) as [H|H]; split; intros X; try discriminate X; auto. exfalso. exact (Qclt_not_le _ _ H X). Qed.
Lemma qle_total a b : qle a b = true \/ qle b a = true.
Proof. rewrite !qle_le. destruct (Qclt_le_dec a b) as [H|H]; [left; now apply Qclt_le_weak|now right]. Qed.
Lemma qle_trans a b c : qle a b = true -> qle b c = true -> qle a c = true.
Proof. rewrite !qle_le. apply Qcle_trans. Qed.

Definition read_b : list (list Z) := [[3;0;0];[3;4;0];[1;1;1]]%Z.
Definition read_hist : list (fop qc_ops) := [FUpdate 0 0; FUpdate 1 1; FUpdate 2 2].
Definition known (en_e ig : bool) : option (gz * fst_ qc_ops) :=
  zs <- fgso_new qc_ops en_e (Qcz 7) read_b 3 [] [] ig false;; frun qc_ops en_e zs read_hist.
(** reachable and fully computed *)
Definition all_valid (en_e ig : bool) (zs : gz * fst_ qc_ops) : Prop :=
  exists zs0, fgso_new qc_ops en_e (Qcz 7) read_b 3 [] [] ig false = Some zs0 /\ flegal_run qc_ops en_e zs0 read_hist /\ frun qc_ops en_e zs0 read_hist = Some zs /\
    forall i j, j <= i < 3 -> valid_coeff qc_ops zs i j.
Definition reach_check (en_e ig : bool) (P : gz * fst_ qc_ops -> bool) : bool :=
  match fgso_new qc_ops en_e (Qcz 7) read_b 3 [] [] ig false with
  | Some zs0 => flegal_runb qc_ops en_e qceqb zs0 read_hist &&
      match frun qc_ops en_e zs0 read_hist with
      | Some zs => forallb (fun i => forallb (fun j => valid_coeffb qc_ops zs i j) (seq 0 (S i))) (seq 0 3) && P zs
      | None => false end
  | None => false end.
Lemma qceqb_eq x y : qceqb x y = true -> x = y.
Proof. unfold qceqb. destruct (Qc_eq_dec x y); congruence. Qed.
Lemma reach_ok en_e ig P : reach_check en_e ig P = true -> exists zs, all_valid en_e ig zs /\ P zs = true.
Proof.
  unfold reach_check. intros H. destruct (fgso_new _ _ _ _ _ _ _ _ _) as [zs0|] eqn:E0; [|discriminate H]. apply andb_prop in H. destruct H as [H1 H].
  destruct (frun _ _ _ _) as [zs|] eqn:E1 in H; [|discriminate H]. apply andb_prop in H. destruct H as [H2 H3]. exists zs. split; [|exact H3]. exists zs0. split; [exact E0|].
  split; [apply (flegal_runb_ok qc_ops en_e qceqb); [exact qceqb_eq|exact H1]|]. split; [exact E1|]. intros i j Hij. rewrite forallb_forall in H2. specialize (H2 i). rewrite forallb_forall in H2.
  apply valid_coeffb_ok, H2; apply in_seq; lia.
Qed.
Definition oqc_eqb (x : option (list Qc)) (y : list Qc) : bool := match x with Some l => if list_eq_dec Qc_eq_dec l y then true else false | None => false end.
Lemma oqc_ok x y : oqc_eqb x y = true -> x = Some y.
Proof. unfold oqc_eqb. destruct x as [l|]; [|discriminate]. destruct (list_eq_dec _ l y); [congruence|discriminate]. Qed.
(** the block of rows 1 and 2: r is 16 and 1, mu(2,1) = 1/4; the upper half is what the memory held (7) *)
Example dump_case : exists zs, all_valid false true zs /\
  dump_r_ptr qc_ops false Qc (fun x => x) zs [Qcz 0; Qcz 0; Qcz 5] 1 2 = Some [Qcz 16; Qcz 1; Qcz 5] /\
  dump_r_vec qc_ops false Qc (fun x => x) zs [Qcz 5] 1 2 = Some [Qcz 5; Qcz 16; Qcz 1] /\
  dump_mu_ptr qc_ops false Qc (fun x => x) zs [Qcz 0; Qcz 0; Qcz 0; Qcz 0; Qcz 5] 1 2 = Some [Qcz 7; Qcz 7; Q2Qc (1 # 4); Qcz 7; Qcz 5].
Proof.
  destruct (reach_ok false true (fun zs => oqc_eqb (dump_r_ptr qc_ops false Qc (fun x => x) zs [Qcz 0; Qcz 0; Qcz 5] 1 2) [Qcz 16; Qcz 1; Qcz 5] &&
    oqc_eqb (dump_r_vec qc_ops false Qc (fun x => x) zs [Qcz 5] 1 2) [Qcz 5; Qcz 16; Qcz 1] &&
    oqc_eqb (dump_mu_ptr qc_ops false Qc (fun x => x) zs [Qcz 0; Qcz 0; Qcz 0; Qcz 0; Qcz 5] 1 2) [Qcz 7; Qcz 7; Q2Qc (1 # 4); Qcz 7; Qcz 5])) as [zs [A H]]; [vm_compute; reflexivity|].
  apply andb_prop in H. destruct H as [H H3]. apply andb_prop in H. destruct H as [H1 H2]. exists zs. split; [exact A|]. split; [|split]; now apply oqc_ok.
Qed.
(** squared norms 9, 25, 3 and r = 9, 16, 1 *)
Example max_case : exists zs, all_valid false true zs /\ get_max_gram qc_ops qle (fun _ => 0%Z) zs = Some 25%Z /\ get_max_bstar qc_ops qle zs = Some (Qcz 16).
Proof.
  destruct (reach_ok false true (fun zs => match get_max_gram qc_ops qle (fun _ => 0%Z) zs with Some x => (x =? 25)%Z | None => false end && match get_max_bstar qc_ops qle zs with Some x => qceqb x (Qcz 16) | None => false end)) as [zs [A H]]; [vm_compute; reflexivity|].
  apply andb_prop in H. destruct H as [H1 H2]. exists zs. split; [exact A|]. split.
  - destruct (get_max_gram _ _ _ _); [|discriminate H1]. apply Z.eqb_eq in H1. congruence.
  - destruct (get_max_bstar _ _ _); [|discriminate H2]. f_equal. now apply qceqb_eq.
Qed.

(** *** False statements *)
(** gso_interface.h:386-390: "When a vector is provided new entries are pushed to the end": the vector
    of the caller stays as it was *)
Theorem dump_mu_vector_refuted : exists zs mu, all_valid false true zs /\ mu = [Qcz 5] /\ dump_mu_vec qc_ops false Qc (fun x => x) zs mu 0 3 = Some mu.
Proof.
  destruct (reach_ok false true (fun zs => oqc_eqb (dump_mu_vec qc_ops false Qc (fun x => x) zs [Qcz 5] 0 3) [Qcz 5])) as [zs [A H]]; [vm_compute; reflexivity|].
  exists zs, [Qcz 5]. split; [exact A|]. split; [reflexivity|]. now apply oqc_ok.
Qed.
(** gso_interface.h:252-257: "Return maximum bstar_i for all i".  With row exponents get_max_bstar
    compares and returns mantissas: here 9/16 although r(1,1) = 16 *)
Theorem max_bstar_expo_refuted : exists zs m x, all_valid true false zs /\ get_max_bstar qc_ops qle zs = Some m /\ get_r qc_ops true zs 1 1 = Some x /\ (m < x)%Qc /\
  (forall i y, i < 3 -> get_r qc_ops true zs i i = Some y -> y <> m).
Proof.
  destruct (reach_ok true false (fun zs => match get_max_bstar qc_ops qle zs with Some m => match get_r qc_ops true zs 1 1 with Some x => negb (qle x m) &&
     forallb (fun i => match get_r qc_ops true zs i i with Some y => negb (qceqb y m) | None => true end) (seq 0 3) | None => false end | None => false end)) as [zs [A H]]; [vm_compute; reflexivity|].
  destruct (get_max_bstar qc_ops qle zs) as [m|] eqn:E1; [|discriminate H]. destruct (get_r qc_ops true zs 1 1) as [x|] eqn:E2; [|discriminate H]. apply andb_prop in H. destruct H as [H1 H2].
  exists zs, m, x. split; [exact A|]. split; [exact E1|]. split; [exact E2|]. split.
  - apply negb_true_iff in H1. unfold qle in H1. destruct (Qclt_le_dec m x) as [L|L]; [exact L|discriminate H1].
  - intros i y Hi Hy Ee. rewrite forallb_forall in H2. specialize (H2 i ltac:(apply in_seq; lia)). rewrite Hy in H2. apply negb_true_iff in H2. unfold qceqb in H2. destruct (Qc_eq_dec y m); congruence.
Qed.
(** gso_interface.h:249-252: the same sentence for get_max_gram: it is the largest norm of a row, not of a bstar *)
Theorem max_gram_bstar_refuted : exists zs m b, all_valid false true zs /\ get_max_gram qc_ops qle (fun _ => 0%Z) zs = Some m /\ get_max_bstar qc_ops qle zs = Some b /\ Qcz m <> b.
Proof.
  destruct max_case as [zs [A [H1 H2]]]. exists zs, 25%Z, (Qcz 16). repeat split; auto. vm_compute. intros H. discriminate H.
Qed.

Print Assumptions dump_mu_right.
Print Assumptions dump_r_right.
Print Assumptions default_block_out_of_range.
Print Assumptions max_bstar_right.
Print Assumptions max_gram_right.
Print Assumptions dump_mu_vector_refuted.
Print Assumptions max_bstar_expo_refuted.
Print Assumptions max_gram_bstar_refuted.
