(** Shape of a basis, Gaussian heuristic, expected number of solutions and the
    number of repetitions (properties C61 and C62). *)
From Coq Require Import List Reals Arith Bool Lia Lra.
From Coquelicot Require Import Coquelicot.
From Verif Require Import Util MatrixModel MatrixProofs PrunerModel PruneVolModel PruneVolProofs PropPruneVol
  PruneCostModel PropPruneCost.
From Verif Require PropPruner.
Import ListNotations.
Local Open Scope R_scope.

(** ** What the numbers should be *)

Definition rprod (v : list R) : R := fold_right Rmult 1 v.

(** [g] holds the squared Gram-Schmidt norms; the lattice generated by the last
    [m] vectors, projected orthogonally to the ones before, has this volume *)
Definition block_vol (m : nat) (g : list R) : R := rprod (map sqrt (skipn (length g - m) g)).

(** volume of the lattice *)
Definition lattice_vol (g : list R) : R := rprod (map sqrt g).

Definition pos_list (g : list R) : Prop := forall i, (i < length g)%nat -> 0 < en g i.

Lemma skipn_last (g : list R) k : (k < length g)%nat ->
  skipn (length g - S k) g = en g (length g - 1 - k) :: skipn (length g - k) g.
Proof.
  intros H. replace (length g - k)%nat with (S (length g - S k)) by lia.
  replace (length g - 1 - k)%nat with (length g - S k)%nat by lia.
  assert (J : (length g - S k < length g)%nat) by lia. revert J. generalize (length g - S k)%nat. clear.
  induction g as [|x g IH]; intros [|j] J; simpl in *; try lia; auto. apply IH. lia.
Qed.

Lemma block_vol_S m g : (m < length g)%nat -> block_vol (S m) g = sqrt (en g (length g - 1 - m)) * block_vol m g.
Proof. intros H. unfold block_vol. rewrite skipn_last by auto. reflexivity. Qed.

Lemma block_vol_0 g : block_vol 0 g = 1.
Proof. unfold block_vol. rewrite Nat.sub_0_r, skipn_all. reflexivity. Qed.

Lemma block_vol_all g : block_vol (length g) g = lattice_vol g.
Proof. unfold block_vol, lattice_vol. rewrite Nat.sub_diag. reflexivity. Qed.

Lemma block_vol_pos m g : pos_list g -> (m <= length g)%nat -> 0 < block_vol m g.
Proof.
  intros P. induction m as [|m IH]; intros H; [rewrite block_vol_0; lra|]. rewrite block_vol_S by lia.
  apply Rmult_lt_0_compat; [apply sqrt_lt_R0, P; lia|apply IH; lia].
Qed.

Definition lnsum (v : list R) : R := fold_right Rplus 0 (map ln v).

Lemma lnsum_vol g : pos_list g -> lnsum g = 2 * ln (lattice_vol g).
Proof.
  induction g as [|x g IH]; intros P.
  - unfold lnsum, lattice_vol. simpl. rewrite ln_1. ring.
  - assert (Px : 0 < x) by (apply (P 0%nat); simpl; lia).
    assert (Pg : pos_list g) by (intros i Hi; apply (P (S i)); simpl; lia).
    assert (V : 0 < lattice_vol g) by (rewrite <- block_vol_all; apply block_vol_pos; auto).
    change (lnsum (x :: g)) with (ln x + lnsum g). change (lattice_vol (x :: g)) with (sqrt x * lattice_vol g).
    rewrite ln_mult by (auto; apply sqrt_lt_R0; auto). rewrite IH by auto.
    assert (X : ln x = 2 * ln (sqrt x)); [|lra].
    rewrite <- (sqrt_sqrt x) at 1 by lra. rewrite ln_mult by (apply sqrt_lt_R0; auto). ring.
Qed.

Section Load.
  Variables n d : nat.
  Hypothesis dims : (0 < n)%nat /\ (2 * d <= n)%nat.

  Lemma copy_shape_spec g r r' : length g = n -> length r = n -> length r' = n ->
    exists r1 r1' lv, copy_shape n g r r' = Some (r1, r1', lv) /\ length r1 = n /\ r1' = g /\
      (forall i, (i < n)%nat -> en r1 i = en g (n - 1 - i)) /\ lv = lnsum g.
  Proof.
    intros Lg Lr Lr'. unfold copy_shape.
    destruct (ofor_inv (fun k (s : list R * list R * R) => let '(r, ro, lv) := s in
        length r = n /\ length ro = n /\ (forall i, (i < k)%nat -> en r i = en g (n - 1 - i)) /\
        (forall i, (i < k)%nat -> en ro i = en g i) /\ lv = lnsum (skipn (n - k) g))
      (fun i s => let '(r, r_old, lv) := s in
        k <- osub (n - 1) i;; x <- nth_error g k;; r <- vset r i x;;
        y <- nth_error g i;; r_old <- vset r_old i y;; Some (r, r_old, lv + ln x)) n 0 (r, r', 0))
      as (((r1 & ro) & lv) & E & L1 & L2 & P1 & P2 & V).
    - split; [auto|]. split; [auto|]. split; [intros i Hi; lia|]. split; [intros i Hi; lia|].
      rewrite Nat.sub_0_r, <- Lg, skipn_all. reflexivity.
    - intros k [[ra rb] lv] Hk (L1 & L2 & P1 & P2 & V). rewrite PropPruner.osub_le by lia. cbn [obind].
      rewrite !nth_error_atR by lia. cbn [obind]. rewrite !PropPruner.vset_at by lia. cbn [obind].
      eexists. split; [reflexivity|]. split; [rewrite upd_length; auto|]. split; [rewrite upd_length; auto|].
      split; [|split].
      + intros i Hi. rewrite en_upd by lia. destruct (i =? k)%nat eqn:Ei; [apply Nat.eqb_eq in Ei; subst i; reflexivity|].
        apply Nat.eqb_neq in Ei. apply P1. lia.
      + intros i Hi. rewrite en_upd by lia. destruct (i =? k)%nat eqn:Ei; [apply Nat.eqb_eq in Ei; subst i; reflexivity|].
        apply Nat.eqb_neq in Ei. apply P2. lia.
      + rewrite V. rewrite <- Lg. rewrite skipn_last by lia. unfold lnsum. cbn [map fold_right]. unfold en. ring.
    - rewrite E. exists r1, ro, lv. split; [reflexivity|]. split; [exact L1|]. split; [|split; [exact P1|]].
      + apply (nth_ext ro g 0 0); [lia|]. intros i Hi. apply P2. lia.
      + rewrite V. replace (n - (0 + n))%nat with O by lia. reflexivity.
  Qed.

  Lemma scale_loop (nf : R) (r : list R) : length r = n ->
    exists r1, ofor (seq 0 n) (fun i r => x <- nth_error r i;; vset r i (x * nf)) r = Some r1 /\ length r1 = n /\
      forall i, (i < n)%nat -> en r1 i = en r i * nf.
  Proof.
    intros L. destruct (ofor_inv (fun k (v : list R) => length v = n /\
        (forall i, (i < k)%nat -> en v i = en r i * nf) /\ (forall i, (k <= i)%nat -> en v i = en r i))
      (fun i r => x <- nth_error r i;; vset r i (x * nf)) n 0 r) as (r1 & E & L1 & P1 & P2).
    - split; [auto|]. split; [intros i Hi; lia|auto].
    - intros k v Hk (Lv & P1 & P2). rewrite nth_error_atR by lia. cbn [obind]. rewrite PropPruner.vset_at by lia.
      eexists. split; [reflexivity|]. split; [rewrite upd_length; auto|]. split; intros i Hi; rewrite en_upd by lia.
      + destruct (i =? k)%nat eqn:Ei; [apply Nat.eqb_eq in Ei; subst i; fold (en v k); rewrite P2 by lia; reflexivity|].
        apply Nat.eqb_neq in Ei. apply P1. lia.
      + destruct (i =? k)%nat eqn:Ei; [apply Nat.eqb_eq in Ei; lia|]. apply P2. lia.
    - exists r1. split; [exact E|]. split; [exact L1|]. intros i Hi. apply P1. lia.
  Qed.

  (** one basis: what load_basis_shape leaves in the members *)
  Lemma load_spec (radius : R) (g : list R) (reset : bool) (s : shape) : length g = n -> pos_list g -> 0 < (if reset then 1 else sh_nf s) ->
    let nf := if reset then exp (lnsum g / - INR n) else sh_nf s in
    exists s', load_basis_shape n d radius g reset s = Some s' /\
      sh_nf s' = nf /\ sh_nr s' = (if reset then sqrt (radius * nf) else sh_nr s) /\
      length (sh_ipv s') = n /\ length (sh_r s') = n /\ sh_r_old s' = g /\ sh_logvol s' = lnsum g /\
      (forall i, (i < n)%nat -> en (sh_r s') i = en g (n - 1 - i) * nf) /\
      (forall m, (1 <= m <= 2 * d)%nat -> en (sh_ipv s') (m - 1) = / (block_vol m g * sqrt nf ^ m)) /\
      (forall i, (2 * d <= i)%nat -> en (sh_ipv s') i = en (rresize n (sh_ipv s)) i).
  Proof.
    intros Lg Pg Hnf nf. destruct dims as (Hn & Hd).
    assert (NF : 0 < nf) by (unfold nf; destruct reset; [apply exp_pos|exact Hnf]).
    unfold load_basis_shape.
    destruct (copy_shape_spec g _ _ Lg (rresize_len n (sh_r s)) (rresize_len n (sh_r_old s)))
      as (r & ro & lv & E & Lr & Ero & Pr & Elv). subst ro lv.
    rewrite E. cbn [obind]. fold nf.
    destruct (scale_loop nf r Lr) as (r1 & E1 & Lr1 & Pr1). rewrite E1. cbn [obind]. unfold partial_volumes.
    destruct (ofor_inv (fun k (st : list R * R) => let '(ipv, tmp) := st in
        length ipv = n /\ tmp = block_vol k g * sqrt nf ^ k /\
        (forall m, (1 <= m <= k)%nat -> en ipv (m - 1) = / (block_vol m g * sqrt nf ^ m)) /\
        (forall i, (k <= i)%nat -> en ipv i = en (rresize n (sh_ipv s)) i))
      (fun i st => let '(ipv, tmp) := st in
        x <- nth_error r1 i;; ipv <- vset ipv i (1 / (tmp * sqrt x));; Some (ipv, tmp * sqrt x))
      (2 * d) 0 (rresize n (sh_ipv s), 1)) as ((ipv & tmp) & E2 & L2 & T2 & P2 & Q2).
    - split; [apply rresize_len|]. split; [rewrite block_vol_0; simpl; ring|]. split; [intros m Hm; lia|auto].
    - intros k [ipv tmp] Hk (L2 & T2 & P2 & Q2). rewrite nth_error_atR by lia. cbn [obind].
      rewrite PropPruner.vset_at by lia. cbn [obind].
      assert (T : tmp * sqrt (nth k r1 0) = block_vol (S k) g * sqrt nf ^ S k).
      { fold (en r1 k). rewrite Pr1, Pr by lia. rewrite sqrt_mult_alt by (left; apply Pg; lia).
        rewrite T2, block_vol_S by lia. rewrite Lg. simpl. ring. }
      rewrite T. eexists. split; [reflexivity|]. split; [rewrite upd_length; auto|]. split; [reflexivity|].
      split; intros m Hm; rewrite en_upd by lia.
      + destruct (m - 1 =? k)%nat eqn:Em.
        * apply Nat.eqb_eq in Em. replace m with (S k) by lia. unfold Rdiv. ring.
        * apply Nat.eqb_neq in Em. apply P2. lia.
      + destruct (m =? k)%nat eqn:Em; [apply Nat.eqb_eq in Em; lia|]. apply Q2. lia.
    - rewrite E2. cbn [obind fst]. eexists. split; [reflexivity|]. cbn [sh_nf sh_nr sh_ipv sh_r sh_r_old sh_logvol].
      split; [reflexivity|]. split; [reflexivity|]. split; [exact L2|]. split; [exact Lr1|]. split; [reflexivity|].
      split; [reflexivity|]. split; [|split; [exact P2|exact Q2]].
      intros i Hi. rewrite Pr1 by auto. rewrite Pr by auto. reflexivity.
  Qed.
End Load.

Lemma nf_root n g : (0 < n)%nat -> length g = n -> pos_list g ->
  sqrt (exp (lnsum g / - INR n)) ^ n * lattice_vol g = 1.
Proof.
  intros Hn Lg Pg. rewrite lnsum_vol by auto.
  assert (V : 0 < lattice_vol g) by (rewrite <- block_vol_all; apply block_vol_pos; auto).
  assert (N : 0 < INR n) by (apply lt_0_INR; lia).
  set (x := - ln (lattice_vol g) / INR n).
  replace (2 * ln (lattice_vol g) / - INR n) with (x + x) by (unfold x; field; lra).
  rewrite exp_plus, sqrt_square by (left; apply exp_pos).
  rewrite <- (exp_ln (lattice_vol g)) at 1 by auto. rewrite <- Rpower_pow by apply exp_pos.
  unfold Rpower. rewrite ln_exp, <- exp_plus. unfold x.
  replace (INR n * (- ln (lattice_vol g) / INR n) + ln (lattice_vol g)) with 0 by (field; lra). apply exp_0.
Qed.

(** *** The members are normalised, but what the estimates use is not affected:
    the ball of radius R over the volume of the projected block; the last inverse
    partial volume is one in even dimension *)
Theorem load_basis_shape_exact n d radius g s :
  (0 < n)%nat -> (2 * d <= n)%nat -> length g = n -> pos_list g -> 0 < radius ->
  exists s', load_basis_shape n d radius g true s = Some s' /\ length (sh_ipv s') = n /\ 0 < sh_nr s' /\
    (forall m, (1 <= m <= 2 * d)%nat ->
       0 < en (sh_ipv s') (m - 1) /\
       en (sh_ipv s') (m - 1) * sh_nr s' ^ m = sqrt radius ^ m / block_vol m g) /\
    (n = (2 * d)%nat -> en (sh_ipv s') (n - 1) = 1) /\
    sh_logvol s' = 2 * ln (lattice_vol g) /\ sh_r_old s' = g /\
    (forall i, (i < n)%nat -> en (sh_r s') i = en g (n - 1 - i) * sh_nf s') /\
    rprod (map sqrt (sh_r s')) = 1.
Proof.
  intros Hn Hd Lg Pg Hr.
  destruct (load_spec n d (conj Hn Hd) radius g true s Lg Pg Rlt_0_1)
    as (s' & E & NF & NR & Li & Lr & Ro & LV & Rr & Ip & _).
  set (nf := exp (lnsum g / - INR n)) in *. assert (P : 0 < nf) by apply exp_pos.
  assert (Q : 0 < sqrt nf) by (apply sqrt_lt_R0; auto).
  exists s'. split; [exact E|]. split; [exact Li|].
  split; [rewrite NR; apply sqrt_lt_R0, Rmult_lt_0_compat; auto|].
  split; [|split; [|split; [|split; [exact Ro|split]]]].
  - intros m Hm. rewrite Ip by auto.
    assert (B : 0 < block_vol m g) by (apply block_vol_pos; auto; lia).
    pose proof (pow_lt _ m Q). split; [apply Rinv_0_lt_compat, Rmult_lt_0_compat; auto|].
    rewrite NR, sqrt_mult_alt, Rpow_mult_distr by lra. field. lra.
  - intros En. rewrite Ip by lia. rewrite <- Lg at 1. rewrite block_vol_all. rewrite <- (nf_root n g) by auto.
    fold nf. rewrite Rmult_comm. rewrite (Rmult_comm (sqrt nf ^ n)). unfold nf. rewrite (Rmult_comm (lattice_vol g)).
    rewrite nf_root by auto. apply Rinv_1.
  - rewrite LV. apply lnsum_vol; auto.
  - intros i Hi. rewrite Rr by auto. rewrite NF. reflexivity.
  - (* product of the normalised norms *)
    transitivity (sqrt nf ^ n * lattice_vol g); [|apply nf_root; auto].
    assert (X : forall k, (k <= n)%nat -> rprod (map sqrt (skipn (n - k) (sh_r s'))) =
                sqrt nf ^ k * rprod (map sqrt (firstn k g))).
    { induction k as [|k IH]; intros Hk.
      - rewrite Nat.sub_0_r, <- Lr, skipn_all. simpl. unfold rprod. simpl. ring.
      - rewrite <- Lr. rewrite skipn_last by lia. rewrite Lr. cbn [map]. unfold rprod at 1. cbn [fold_right].
        fold (rprod (map sqrt (skipn (n - k) (sh_r s')))). rewrite IH by lia. rewrite Rr by lia.
        replace (n - 1 - (n - 1 - k))%nat with k by lia. rewrite sqrt_mult_alt by (left; apply Pg; lia).
        rewrite (firstn_snoc g k) by lia. rewrite map_app.
        assert (A : forall u v, rprod (u ++ v) = rprod u * rprod v).
        { clear. induction u as [|x u IH]; intros v; unfold rprod in *; simpl; [ring|rewrite IH; ring]. }
        rewrite A. fold (en g k). unfold rprod. simpl. ring. }
    specialize (X n (Nat.le_refl _)). rewrite Nat.sub_diag in X. cbn [skipn] in X. rewrite X.
    unfold lattice_vol. rewrite firstn_all2 by lia. reflexivity.
Qed.

(** *** The Gaussian heuristic is the squared radius of the ball that has the
    volume of the lattice *)
Theorem gaussian_heuristic_volume n d radius g s s' ball :
  (0 < n)%nat -> (2 * d <= n)%nat -> length g = n -> pos_list g ->
  (n < length ball)%nat -> 0 < en ball n ->
  load_basis_shape n d radius g true s = Some s' ->
  exists gh, gaussian_heuristic n ball s' = Some gh /\ 0 < gh /\ en ball n * sqrt gh ^ n = lattice_vol g.
Proof.
  intros Hn Hd Lg Pg Lb Pb E.
  destruct (load_spec n d (conj Hn Hd) radius g true s Lg Pg Rlt_0_1) as (s1 & E1 & NF & _).
  rewrite E in E1. injection E1 as <-.
  set (nf := exp (lnsum g / - INR n)) in *. assert (P : 0 < nf) by apply exp_pos.
  unfold gaussian_heuristic. rewrite nth_error_atR by auto. fold (en ball n). cbn [obind]. rewrite NF.
  eexists. split; [reflexivity|]. split; [apply Rdiv_lt_0_compat; auto; apply exp_pos|].
  assert (N : 0 < INR n) by (apply lt_0_INR; lia).
  rewrite sqrt_div_alt by auto. unfold Rdiv at 1. rewrite Rpow_mult_distr.
  assert (B : en ball n * sqrt (exp (2 * ln (en ball n) / - INR n)) ^ n = 1).
  { set (x := - ln (en ball n) / INR n).
    replace (2 * ln (en ball n) / - INR n) with (x + x) by (unfold x; field; lra).
    rewrite exp_plus, sqrt_square by (left; apply exp_pos).
    rewrite <- (exp_ln (en ball n)) at 1 by auto. rewrite <- Rpower_pow by apply exp_pos.
    unfold Rpower. rewrite ln_exp, <- exp_plus. unfold x.
    replace (ln (en ball n) + INR n * (- ln (en ball n) / INR n)) with 0 by (field; lra). apply exp_0. }
  rewrite <- Rmult_assoc, B, Rmult_1_l.
  pose proof (nf_root n g Hn Lg Pg) as Q. fold nf in Q.
  assert (Z : sqrt nf ^ n <> 0) by (apply pow_nonzero; pose proof (sqrt_lt_R0 nf P); lra).
  rewrite pow_inv || rewrite <- Rinv_pow by (pose proof (sqrt_lt_R0 nf P); lra).
  apply Rmult_eq_reg_l with (sqrt nf ^ n); auto. rewrite Rinv_r by auto. lra.
Qed.

(** *** Several bases: the average of what each basis would give on its own, on
    the scale of the first one *)
Lemma add_loop (n : nat) (v w : list R) : length v = n -> length w = n ->
  exists u, ofor (seq 0 n) (fun i u => x <- nth_error u i;; y <- nth_error w i;; vset u i (x + y)) v = Some u /\
    length u = n /\ forall i, (i < n)%nat -> en u i = en v i + en w i.
Proof.
  intros Lv Lw. destruct (ofor_inv (fun k (u : list R) => length u = n /\
      (forall i, (i < k)%nat -> en u i = en v i + en w i) /\ (forall i, (k <= i)%nat -> en u i = en v i))
    (fun i u => x <- nth_error u i;; y <- nth_error w i;; vset u i (x + y)) n 0 v) as (u & E & L & P & Q).
  - split; [auto|]. split; [intros i Hi; lia|auto].
  - intros k u Hk (L & P & Q). rewrite !nth_error_atR by lia. cbn [obind]. rewrite PropPruner.vset_at by lia.
    eexists. split; [reflexivity|]. split; [rewrite upd_length; auto|]. split; intros i Hi; rewrite en_upd by lia.
    + destruct (i =? k)%nat eqn:Ei; [apply Nat.eqb_eq in Ei; subst i; fold (en u k) (en w k); rewrite Q by lia; reflexivity|].
      apply Nat.eqb_neq in Ei. apply P. lia.
    + destruct (i =? k)%nat eqn:Ei; [apply Nat.eqb_eq in Ei; lia|]. apply Q. lia.
  - exists u. split; [exact E|]. split; [exact L|]. intros i Hi. apply P. lia.
Qed.

Lemma avg_loop (n : nat) (c : R) (sum v : list R) : length sum = n -> length v = n ->
  exists u, ofor (seq 0 n) (fun i u => x <- nth_error sum i;; vset u i (x / c)) v = Some u /\
    length u = n /\ forall i, (i < n)%nat -> en u i = en sum i / c.
Proof.
  intros Ls Lv. destruct (ofor_inv (fun k (u : list R) => length u = n /\
      (forall i, (i < k)%nat -> en u i = en sum i / c))
    (fun i u => x <- nth_error sum i;; vset u i (x / c)) n 0 v) as (u & E & L & P).
  - split; [auto|]. intros i Hi; lia.
  - intros k u Hk (L & P). rewrite nth_error_atR by lia. cbn [obind]. rewrite PropPruner.vset_at by lia.
    eexists. split; [reflexivity|]. split; [rewrite upd_length; auto|]. intros i Hi; rewrite en_upd by lia.
    destruct (i =? k)%nat eqn:Ei; [apply Nat.eqb_eq in Ei; subst i; reflexivity|].
    apply Nat.eqb_neq in Ei. apply P. lia.
  - exists u. split; [exact E|]. split; [exact L|]. intros i Hi. apply P. lia.
Qed.

(** sum of [f] over the bases *)
Definition over (f : list R -> R) (gs : list (list R)) : R := fold_right (fun g a => f g + a) 0 gs.

Lemma over_app f u v : over f (u ++ v) = over f u + over f v.
Proof. induction u as [|x u IH]; simpl; [ring|]. unfold over in *. cbn [app fold_right]. rewrite IH. ring. Qed.

Lemma firstn_snoc_gen {A} (l : list A) k x : nth_error l k = Some x -> firstn (S k) l = firstn k l ++ [x].
Proof.
  revert k. induction l as [|a l IH]; intros [|k] H; simpl in *; try discriminate; [congruence|].
  f_equal. apply IH; auto.
Qed.

Theorem load_basis_shapes_average n d radius gs s :
  (0 < n)%nat -> (2 * d <= n)%nat -> gs <> [] -> (forall g, In g gs -> length g = n /\ pos_list g) -> 0 < radius ->
  exists s', load_basis_shapes d radius gs s = Some s' /\ length (sh_ipv s') = n /\ 0 < sh_nr s' /\
    (forall m, (1 <= m <= 2 * d)%nat -> en (sh_ipv s') (m - 1) * sh_nr s' ^ m =
       over (fun g => sqrt radius ^ m / block_vol m g) gs / INR (length gs)) /\
    sh_nf s' = exp (2 * ln (lattice_vol (hd [] gs)) / - INR n).
Proof.
  intros Hn Hd Hne Hall Hr. destruct gs as [|g0 gs0] eqn:Egs; [congruence|]. rewrite <- Egs in *. clear Hne.
  destruct (Hall g0) as (L0 & P0); [rewrite Egs; simpl; auto|].
  set (nf := exp (lnsum g0 / - INR n)). set (nr := sqrt (radius * nf)).
  assert (NF : 0 < nf) by apply exp_pos. assert (Q : 0 < sqrt nf) by (apply sqrt_lt_R0; auto).
  assert (H0 : nth_error gs 0 = Some g0) by (rewrite Egs; reflexivity).
  assert (Hcnt : (0 < length gs)%nat) by (rewrite Egs; simpl; lia).
  assert (Hhd : hd [] gs = g0) by (rewrite Egs; reflexivity). clear Egs gs0.
  unfold load_basis_shapes. rewrite H0. cbn [obind]. rewrite L0.
  set (body := fun (k : nat) (st : shape * list R) => let '(s0, sum) := st in _).
  destruct (ofor_inv (fun k (st : shape * list R) => let '(s1, sum) := st in
      length sum = n /\
      (forall m, (1 <= m <= 2 * d)%nat -> en sum (m - 1) = over (fun g => / (block_vol m g * sqrt nf ^ m)) (firstn k gs)) /\
      ((0 < k)%nat -> sh_nf s1 = nf /\ sh_nr s1 = nr /\ length (sh_ipv s1) = n)) body (length gs) 0 (s, repeat 0 n))
    as ((s1 & sum) & E & Ls & Ps & Qs).
  - split; [apply repeat_length|]. split; [|intros; lia].
    intros m Hm. unfold en, over. cbn [firstn fold_right]. rewrite nth_repeat. reflexivity.
  - intros k [s1 sum] Hk (Ls & Ps & Qs). unfold body.
    destruct (nth_error gs k) as [g|] eqn:Eg; [|apply nth_error_None in Eg; lia]. cbn [obind].
    destruct (Hall g) as (Lg & Pg); [apply nth_error_In in Eg; auto|].
    rewrite Lg, Nat.eqb_refl.
    assert (Hreset : 0 < (if (k =? 0)%nat then 1 else sh_nf s1)).
    { destruct (k =? 0)%nat eqn:Ek; [lra|]. apply Nat.eqb_neq in Ek. destruct (Qs ltac:(lia)) as (-> & _). auto. }
    destruct (load_spec n d (conj Hn Hd) radius g (k =? 0)%nat s1 Lg Pg Hreset)
      as (s2 & E2 & NF2 & NR2 & Li & _ & _ & _ & _ & Ip & _).
    assert (S2 : sh_nf s2 = nf /\ sh_nr s2 = nr).
    { rewrite NF2, NR2. destruct (k =? 0)%nat eqn:Ek.
      - apply Nat.eqb_eq in Ek. subst k. rewrite H0 in Eg. injection Eg as <-. auto.
      - apply Nat.eqb_neq in Ek. destruct (Qs ltac:(lia)) as (-> & -> & _). auto. }
    destruct S2 as (S2a & S2b). rewrite <- NF2, S2a in Ip.
    rewrite E2. cbn [obind]. destruct (add_loop n sum (sh_ipv s2) Ls Li) as (u & Eu & Lu & Pu).
    rewrite Eu. cbn [obind]. eexists. split; [reflexivity|]. split; [exact Lu|]. split; [|intros _; auto].
    intros m Hm. rewrite Pu by lia. rewrite Ps, Ip by auto. rewrite (firstn_snoc_gen gs k g Eg), over_app.
    unfold over at 3. simpl. ring.
  - rewrite E. cbn [obind]. destruct (Qs Hcnt) as (N1 & N2 & N3).
    destruct (avg_loop n (1 * INR (length gs)) sum (sh_ipv s1) Ls N3) as (u & Eu & Lu & Pu).
    rewrite Eu. cbn [obind]. eexists. split; [reflexivity|]. cbn [sh_ipv sh_nr sh_nf].
    split; [exact Lu|]. rewrite N2. assert (NR : 0 < nr) by (apply sqrt_lt_R0, Rmult_lt_0_compat; auto).
    split; [exact NR|]. split.
    + intros m Hm. rewrite Pu by lia. rewrite Ps by auto. rewrite Nat.add_0_l, firstn_all.
      assert (C : INR (length gs) <> 0) by (apply not_0_INR; lia).
      assert (X : over (fun g => / (block_vol m g * sqrt nf ^ m)) gs * nr ^ m =
                  over (fun g => sqrt radius ^ m / block_vol m g) gs).
      { clear -Hall Hd Hm Hr NF Q nr. unfold nr. rewrite sqrt_mult_alt, Rpow_mult_distr by lra.
        pose proof (pow_lt _ m Q). induction gs as [|g gs IH]; [unfold over; simpl; ring|].
        assert (I : over (fun g => / (block_vol m g * sqrt nf ^ m)) gs * (sqrt radius ^ m * sqrt nf ^ m) =
                    over (fun g => sqrt radius ^ m / block_vol m g) gs)
          by (apply IH; intros; apply Hall; simpl; auto).
        unfold over in *. cbn [fold_right]. rewrite Rmult_plus_distr_r, I. f_equal.
        destruct (Hall g (or_introl eq_refl)) as (Lg & Pg).
        assert (0 < block_vol m g) by (apply block_vol_pos; auto; lia). field. lra. }
      rewrite <- X. field. auto.
    + rewrite N1. unfold nf. rewrite Hhd, lnsum_vol by auto. reflexivity.
Qed.

Section Estimates.
  Variable dx : R.
  Variable fresh : nat -> list R.
  Hypothesis fresh_len : forall k, length (fresh k) = S k.
  Variable ball : list R.
  Variable sym : R.
  Variables n d : nat.
  Variable g : list R.
  Variable radius : R.
  Variable sh : shape.
  Variable s0 : shape.
  Hypothesis sizes : (0 < d)%nat /\ (2 * d <= n)%nat /\ (n < length ball)%nat.
  Hypothesis positive : 0 < sym /\ 0 < radius /\ (forall i, (i <= n)%nat -> 0 < en ball i).
  Hypothesis basis : length g = n /\ pos_list g.
  (** the constructor of the pruner (pruner.h:306-366) loads the shape *)
  Hypothesis loaded : load_basis_shape n d radius g true s0 = Some sh.

  Notation cost := (single_enum_cost fresh ball sym n d sh).
  Notation cost_low := (single_enum_cost_lower fresh ball sym n d sh).
  Notation cost_high := (single_enum_cost_upper fresh ball sym n d sh).
  Notation solutions := (expected_solutions fresh ball sym d sh).

  (** number of points of the projected lattice of dimension [m] in the ball of
      the radius, by volume, up to symmetry *)
  Definition ball_points (m : nat) : R := sym * en ball m * (sqrt radius ^ m / block_vol m g).

  Lemma shape_facts : length (sh_ipv sh) = n /\ 0 < sh_nr sh /\
    (forall m, (1 <= m <= 2 * d)%nat -> 0 < en (sh_ipv sh) (m - 1) /\
       en (sh_ipv sh) (m - 1) * sh_nr sh ^ m = sqrt radius ^ m / block_vol m g).
  Proof.
    destruct sizes as (H1 & H2 & H3), positive as (H4 & H5 & H6), basis as (H7 & H8).
    destruct (load_basis_shape_exact n d radius g s0) as (s' & E & A & B & C & _); auto; [lia|].
    rewrite loaded in E. injection E as <-. auto.
  Qed.

  Lemma cost_sizes : (0 < d)%nat /\ (2 * d <= n)%nat /\ (2 * d < length ball)%nat /\ length (sh_ipv sh) = n.
  Proof. destruct sizes as (H1 & H2 & H3), shape_facts as (H4 & _). repeat split; auto; lia. Qed.

  Lemma cost_positive : 0 < sym /\ 0 < sh_nr sh /\
    (forall i, (i <= 2 * d)%nat -> 0 < en ball i) /\ (forall i, (i < 2 * d)%nat -> 0 < en (sh_ipv sh) i).
  Proof.
    destruct sizes as (H1 & H2 & H3), positive as (H4 & H5 & H6), shape_facts as (H7 & H8 & H9).
    split; [auto|]. split; [auto|]. split; [intros i Hi; apply H6; lia|].
    intros i Hi. destruct (H9 (S i) ltac:(lia)) as (H & _). replace (S i - 1)%nat with i in H by lia. auto.
  Qed.

  Lemma level_is m : (1 <= m <= 2 * d)%nat ->
    sym * en ball m * en (sh_ipv sh) (m - 1) * sh_nr sh ^ m = ball_points m.
  Proof.
    intros Hm. destruct shape_facts as (_ & _ & H). destruct (H m Hm) as (_ & E). unfold ball_points. rewrite <- E. ring.
  Qed.

  (** *** Half profiles: cost per level, in terms of the input only *)
  Theorem enum_cost_estimate b det : length b = d -> profile d b ->
    exists total det', cost b det = Some (total, det') /\ length det' = n /\
      (forall k, (1 <= k <= d)%nat -> en det' (2 * d - 2 * k) = ball_points (2 * k) * part k b) /\
      en det' (2 * d - 1) = ball_points 1 * sqrt (en b 0) /\
      (forall k, (1 <= k < d)%nat -> en det' (2 * d - (2 * k + 1)) =
         ball_points (2 * k + 1) * sqrt (part k b * part (k + 1) b * (en b k / en b (k - 1)) ^ k)) /\
      total = rsum (2 * d) det'.
  Proof.
    intros Lb Pb. unfold single_enum_cost. rewrite Lb, Nat.eqb_refl.
    destruct (enum_cost_levels fresh fresh_len ball sym n d sh cost_sizes b det Pb)
      as (total & det' & E & L & A & B & C & T).
    destruct sizes as (Hd & _).
    exists total, det'. split; [exact E|]. split; [exact L|]. split; [|split; [|split; [|exact T]]].
    - intros k Hk. rewrite A by auto. rewrite <- level_is by lia. ring.
    - rewrite B. rewrite <- level_is by lia. simpl. ring.
    - intros k Hk. rewrite C by auto. rewrite <- level_is by lia. replace (2 * k + 1 - 1)%nat with (2 * k)%nat by lia. ring.
  Qed.

  Lemma expected_value b : length b = d -> profile d b ->
    expected_solutions_evec fresh ball sym d sh b = Some (ball_points (2 * d) * part d b).
  Proof.
    intros Lb Pb. pose proof Pb as (_ & P & _). pose proof cost_sizes as (Hd & Hn & Hb & Hi).
    pose proof cost_positive as (Ps & Pr & Pbl & Pi).
    unfold expected_solutions_evec. rewrite PropPruner.osub_le by lia. cbn [obind].
    rewrite relative_volume_is by (auto; lia). cbn [obind].
    replace ((2 * d - 1) / 2)%nat with (d - 1)%nat.
    2:{ replace (2 * d - 1)%nat with ((d - 1) * 2 + 1)%nat by lia. rewrite Nat.div_add_l by lia. simpl. lia. }
    rewrite !nth_error_atR by lia. cbn [obind]. replace (2 * d - 1 + 1)%nat with (2 * d)%nat by lia.
    fold (rel d b). fold (en ball (2 * d)) (en b (d - 1)) (en (sh_ipv sh) (2 * d - 1)).
    pose proof (rel_range fresh fresh_len d b Pb) as (Rp & _).
    pose proof (Pbl (2 * d)%nat ltac:(lia)) as B0. pose proof (P (d - 1)%nat ltac:(lia)) as B1.
    pose proof (Pi (2 * d - 1)%nat ltac:(lia)) as I0.
    rewrite !exp_plus, !exp_ln by auto. f_equal.
    assert (X : exp ((ln (sh_nr sh) + ln (en b (d - 1)) / 2) * INR (2 * d)) = sh_nr sh ^ (2 * d) * en b (d - 1) ^ d).
    { replace (2 * d)%nat with (d + d)%nat by lia.
      replace ((ln (sh_nr sh) + ln (en b (d - 1)) / 2) * INR (d + d))
        with (INR (d + d) * ln (sh_nr sh) + INR d * ln (en b (d - 1))) by (rewrite plus_INR; field).
      rewrite exp_plus. fold (Rpower (sh_nr sh) (INR (d + d))). fold (Rpower (en b (d - 1)) (INR d)).
      rewrite !Rpower_pow by auto. reflexivity. }
    rewrite X. rewrite <- (scale_back d b) by auto. rewrite <- level_is by lia. ring.
  Qed.

  (** *** Expected number of solutions: the estimate for the deepest level *)
  Theorem expected_solutions_last_level b det : length b = d -> profile d b ->
    exists e total det', solutions b = Some e /\ cost b det = Some (total, det') /\
      e = en det' 0 /\ e = ball_points (2 * d) * part d b /\ 0 < e /\
      (n = (2 * d)%nat -> e = sym * en ball n * (sqrt radius ^ n / lattice_vol g) * part d b).
  Proof.
    intros Lb Pb. destruct (enum_cost_estimate b det Lb Pb) as (total & det' & E & L & A & _).
    destruct sizes as (Hd & Hn & Hb). exists (ball_points (2 * d) * part d b), total, det'.
    split; [unfold expected_solutions; rewrite Lb, Nat.eqb_refl; apply expected_value; auto|].
    split; [exact E|]. split; [|split; [reflexivity|split]].
    - rewrite <- A by lia. f_equal. lia.
    - pose proof (part_pos fresh fresh_len d b Hd Pb). pose proof cost_positive as (Ps & Pr & Pbl & Pi).
      rewrite <- level_is by lia. apply Rmult_lt_0_compat; auto.
      repeat apply Rmult_lt_0_compat; auto; try (apply Pbl; lia); try (apply Pi; lia); apply pow_lt; auto.
    - intros En. unfold ball_points. rewrite <- En. destruct basis as (Lg & _). rewrite <- Lg at 3. rewrite block_vol_all.
      reflexivity.
  Qed.

  Theorem expected_solutions_monotone b b' e e' :
    length b = d -> length b' = d -> profile d b -> profile d b' -> relaxed d b b' ->
    solutions b = Some e -> solutions b' = Some e' -> e <= e'.
  Proof.
    intros Lb Lb' Pb Pb' R E E'. unfold expected_solutions in E, E'. rewrite Lb, Nat.eqb_refl in E.
    rewrite Lb', Nat.eqb_refl in E'. rewrite expected_value in E, E' by auto. injection E as <-. injection E' as <-.
    destruct sizes as (Hd & Hn & Hb). apply Rmult_le_compat_l; [|apply part_mono; auto].
    pose proof cost_positive as (Ps & Pr & Pbl & Pi).
    left. rewrite <- level_is by lia. repeat apply Rmult_lt_0_compat; auto; try (apply Pbl; lia); try (apply Pi; lia); apply pow_lt; auto.
  Qed.

  Lemma full_len (b : list R) : (2 * d <= length b)%nat -> (length b =? d)%nat = false.
  Proof. intros H. destruct sizes as (Hd & _). apply Nat.eqb_neq. lia. Qed.

  (** *** Full profiles: the expected number of solutions lies between the two
      halves, the result of single_enum_cost is the mean of the two halves while
      detailed_cost is that of the upper half only *)
  Theorem expected_solutions_bracket b : (2 * d <= length b)%nat -> profile (2 * d) b ->
    exists l u e, expected_solutions_lower fresh ball sym d sh b = Some l /\
      expected_solutions_upper fresh ball sym d sh b = Some u /\ solutions b = Some e /\ l <= e <= u.
  Proof.
    intros Lb Pb.
    destruct (every_second_spec d 0 b) as (v & Ev & Lv & Pv); [lia..|].
    destruct (every_second_spec d 1 b) as (w & Ew & Lw & Pw); [lia..|].
    assert (Qv : profile d v) by (apply (half_profile d 0 b); auto).
    assert (Qw : profile d w) by (apply (half_profile d 1 b); auto).
    assert (R : relaxed d v w).
    { intros i Hi. rewrite Pv, Pw by auto. apply (profile_le _ _ Pb). lia. }
    exists (ball_points (2 * d) * part d v), (ball_points (2 * d) * part d w).
    exists ((ball_points (2 * d) * part d v + ball_points (2 * d) * part d w) / 2).
    unfold expected_solutions, expected_solutions_lower, expected_solutions_upper.
    rewrite full_len by auto. rewrite Ev, Ew. cbn [obind]. rewrite !expected_value by auto. cbn [obind].
    split; [reflexivity|]. split; [reflexivity|]. split; [reflexivity|].
    assert (M : solutions v = Some (ball_points (2 * d) * part d v)).
    { unfold expected_solutions. rewrite Lv, Nat.eqb_refl. apply expected_value; auto. }
    assert (N : solutions w = Some (ball_points (2 * d) * part d w)).
    { unfold expected_solutions. rewrite Lw, Nat.eqb_refl. apply expected_value; auto. }
    pose proof (expected_solutions_monotone v w _ _ Lv Lw Qv Qw R M N). lra.
  Qed.

  Theorem enum_cost_full b det : (2 * d <= length b)%nat -> profile (2 * d) b ->
    exists l dl u du t dt, cost_low b det = Some (l, dl) /\ cost_high b det = Some (u, du) /\
      cost b det = Some (t, dt) /\ t = (l + u) / 2 /\ 0 < l /\ 0 < u /\
      length dt = n /\ (forall i, (i < 2 * d)%nat -> en dt i = en du i) /\ u = rsum (2 * d) dt.
  Proof.
    intros Lb Pb.
    destruct (every_second_spec d 0 b) as (v & Ev & Lv & Pv); [lia..|].
    destruct (every_second_spec d 1 b) as (w & Ew & Lw & Pw); [lia..|].
    assert (Qv : profile d v) by (apply (half_profile d 0 b); auto).
    assert (Qw : profile d w) by (apply (half_profile d 1 b); auto).
    destruct (cost_spec fresh fresh_len ball sym n d sh cost_sizes v det Qv) as (l & dl & El & Ll & Dl & Tl).
    destruct (cost_spec fresh fresh_len ball sym n d sh cost_sizes w det Qw) as (u & du & Eu & Lu & Du & Tu).
    destruct (cost_spec fresh fresh_len ball sym n d sh cost_sizes w dl Qw) as (u' & du' & Eu' & Lu' & Du' & Tu').
    destruct sizes as (Hd & Hn & Hb).
    assert (X : u' = u) by congruence.
    assert (Pos : forall c, profile d c -> forall i, (i < 2 * d)%nat -> 0 < full_level ball sym sh i * width c i).
    { intros c Pc i Hi. apply Rmult_lt_0_compat; [apply (full_level_pos ball sym d sh cost_positive); auto|].
      apply (width_pos fresh fresh_len d); auto. }
    exists l, dl, u, du, ((l + u) / 2), du'. unfold single_enum_cost, single_enum_cost_lower, single_enum_cost_upper.
    rewrite full_len by auto. rewrite Ev, Ew. cbn [obind]. rewrite El. cbn [obind snd fst]. rewrite Eu, Eu'. cbn [obind fst snd].
    split; [reflexivity|]. split; [reflexivity|]. split; [rewrite X; reflexivity|]. split; [reflexivity|].
    split; [rewrite Tl; apply upto_pos; [lia|]; intros; apply Pos; auto|].
    split; [rewrite Tu; apply upto_pos; [lia|]; intros; apply Pos; auto|].
    split; [exact Lu'|]. split.
    - intros i Hi. replace i with (2 * d - S (2 * d - S i))%nat by lia. rewrite Du, Du' by lia. reflexivity.
    - rewrite Tu. symmetry. apply sum_rev; [lia|exact Du'].
  Qed.
End Estimates.

(** ** Number of repetitions *)

(** *** The number of trials of target_function (metric: probability of the
    shortest vector) is the smallest real number, not below one, with which the
    target is reached *)
Theorem target_function_trials dx fresh ball sym d n sh preproc target b p c det :
  0 < target < 1 -> 0 < p < 1 ->
  svp_probability dx fresh d b = Some p -> single_enum_cost fresh ball sym n d sh b [] = Some (c, det) ->
  exists t, target_function dx fresh ball sym n d sh Probability preproc target b = Some (c * t + preproc * (t - 1)) /\
    repeated_enum_cost dx fresh ball sym n d sh Probability preproc target b = Some (c * t + preproc * (t - 1)) /\
    1 <= t /\ target <= 1 - Rpower (1 - p) t /\ (t = 1 \/ 1 - Rpower (1 - p) t = target).
Proof.
  intros Ht Hp Ep Ec. unfold target_function, repeated_enum_cost. rewrite Ep, Ec. cbn [obind].
  unfold trials_for. destruct (Req_EM_T p 0); [lra|]. destruct (Req_EM_T p 1); [lra|].
  destruct (Rlt_dec 1 p); [lra|]. cbn [obind fst]. unfold repeated.
  set (t := ln (1 - target) / ln (1 - p)).
  assert (N : ln (1 - p) < 0) by (rewrite <- ln_1; apply ln_increasing; lra).
  assert (X : Rpower (1 - p) t = 1 - target).
  { unfold Rpower, t. replace (ln (1 - target) / ln (1 - p) * ln (1 - p)) with (ln (1 - target)) by (field; lra).
    apply exp_ln. lra. }
  destruct (Rlt_dec t 1) as [H|H].
  - exists 1. split; [reflexivity|]. split; [reflexivity|]. split; [lra|]. split; [|auto].
    assert (Rpower (1 - p) 1 <= Rpower (1 - p) t); [|lra]. unfold Rpower.
    destruct (Rle_lt_or_eq_dec (1 * ln (1 - p)) (t * ln (1 - p))) as [Q|Q]; [|left; apply exp_increasing; auto|rewrite Q; lra].
    rewrite !(Rmult_comm _ (ln (1 - p))). apply Rmult_le_compat_neg_l; lra.
  - exists t. split; [reflexivity|]. split; [reflexivity|]. split; [lra|]. rewrite X. split; [lra|]. right. lra.
Qed.

(** certain success: one trial *)
Theorem target_function_certain dx fresh ball sym d n sh preproc target b c det :
  svp_probability dx fresh d b = Some 1 -> single_enum_cost fresh ball sym n d sh b [] = Some (c, det) ->
  target_function dx fresh ball sym n d sh Probability preproc target b = Some c.
Proof.
  intros Ep Ec. unfold target_function. rewrite Ep, Ec. cbn [obind]. unfold trials_for.
  destruct (Req_EM_T 1 0); [lra|]. destruct (Req_EM_T 1 1) as [_|N]; [|congruence]. cbn [obind fst]. unfold repeated.
  destruct (Rlt_dec 0 1); [|lra]. f_equal. ring.
Qed.

(** *** Metric: expected solutions *)
Theorem target_function_solutions dx fresh ball sym d n sh preproc target b e c det :
  0 < target -> 0 < e ->
  expected_solutions fresh ball sym d sh b = Some e -> single_enum_cost fresh ball sym n d sh b [] = Some (c, det) ->
  exists t, target_function dx fresh ball sym n d sh Solutions preproc target b = Some (c * t + preproc * (t - 1)) /\
    1 <= t /\ target <= t * e /\ (t = 1 \/ t * e = target).
Proof.
  intros Ht He Ee Ec. unfold target_function. rewrite Ee, Ec. cbn [obind]. destruct (Req_EM_T e 0); [lra|].
  cbn [obind fst]. unfold repeated. assert (X : target / e * e = target) by (field; lra).
  destruct (Rlt_dec (target / e) 1) as [H|H].
  - exists 1. split; [reflexivity|]. split; [lra|]. split; [|auto].
    assert (target / e * e <= 1 * e); [|lra]. apply Rmult_le_compat_r; lra.
  - exists (target / e). split; [reflexivity|]. split; [lra|]. split; [lra|]. right. lra.
Qed.

(** the target value is at least the cost of one enumeration *)
Theorem target_function_at_least_one dx fresh ball sym d n sh m preproc target b c det v :
  0 <= c -> 0 <= preproc -> single_enum_cost fresh ball sym n d sh b [] = Some (c, det) ->
  target_function dx fresh ball sym n d sh m preproc target b = Some v -> c <= v.
Proof.
  intros Hc Hp Ec E. assert (X : forall t, c <= repeated preproc c t).
  { intros t. unfold repeated. assert (Q : forall u, 1 <= u -> c <= c * u + preproc * (u - 1)).
    { intros u Hu. assert (c * 1 <= c * u) by (apply Rmult_le_compat_l; lra).
      assert (0 <= preproc * (u - 1)) by (apply Rmult_le_pos; lra). lra. }
    destruct (Rlt_dec t 1); apply Q; lra. }
  unfold target_function in E. rewrite Ec in E. destruct m.
  - destruct (svp_probability dx fresh d b) as [p|]; [|discriminate]. cbn [obind] in E.
    destruct (trials_for target p) as [t|]; [|discriminate]. cbn [obind fst] in E. injection E as <-. apply X.
  - destruct (expected_solutions fresh ball sym d sh b) as [e|]; [|discriminate]. cbn [obind] in E.
    destruct (Req_EM_T e 0); [discriminate|]. cbn [obind fst] in E. injection E as <-. apply X.
Qed.

(** *** External coefficients: single_enum_cost sees every second coefficient only *)
Theorem public_single_enum_cost_is_lower fresh ball sym n d sh pr det :
  (0 < d)%nat -> (2 * d <= n)%nat -> length pr = n -> (n <> d)%nat ->
  exists b, load_profile n d n pr = Some b /\ length b = n /\
    (forall i, (i < n)%nat -> en b i = en pr (n - 1 - i)) /\
    public_single_enum_cost fresh ball sym n d sh pr det = single_enum_cost_lower fresh ball sym n d sh b det.
Proof.
  intros Hd Hn Lp Nd. unfold public_single_enum_cost.
  assert (LP : forall dn c, c = (if (dn =? d)%nat then 2%nat else 1%nat) -> (c * (dn - 1) + 1 <= n)%nat -> (0 < dn)%nat ->
    exists b, load_profile n d dn pr = Some b /\ length b = dn /\
      forall i, (i < dn)%nat -> en b i = en pr (n - 1 - c * i)).
  { intros dn c -> Hc Hdn. unfold load_profile. set (c := if (dn =? d)%nat then 2%nat else 1%nat) in *.
    destruct (ofor_inv (fun k (b : list R) => length b = dn /\ forall i, (i < k)%nat -> en b i = en pr (n - 1 - c * i))
      (fun i b => k <- osub n (c * i + 1);; x <- nth_error pr k;; vset b i x) dn 0 (repeat 0 dn)) as (b & E & L & P).
    - split; [apply repeat_length|]. intros i Hi. lia.
    - intros k b Hk (L & P). assert (c * k <= c * (dn - 1))%nat by (apply Nat.mul_le_mono_l; lia).
      rewrite PropPruner.osub_le by lia. cbn [obind]. rewrite nth_error_atR by lia. cbn [obind].
      rewrite PropPruner.vset_at by lia. eexists. split; [reflexivity|]. split; [rewrite upd_length; auto|].
      intros i Hi. rewrite en_upd by lia. destruct (i =? k)%nat eqn:Ei.
      + apply Nat.eqb_eq in Ei. subst i. replace (n - (c * k + 1))%nat with (n - 1 - c * k)%nat by lia. reflexivity.
      + apply Nat.eqb_neq in Ei. apply P. lia.
    - exists b. split; [exact E|]. split; [exact L|]. intros i Hi. apply P. lia. }
  destruct (LP n 1%nat) as (b & E & L & P); [apply Nat.eqb_neq in Nd; rewrite Nd; auto|lia|lia|].
  destruct (LP d 2%nat) as (v & Ev & Lv & Pv); [rewrite Nat.eqb_refl; auto|lia|lia|].
  exists b. split; [exact E|]. split; [exact L|].
  split; [intros i Hi; rewrite P by auto; f_equal; lia|]. rewrite Ev. cbn [obind]. unfold single_enum_cost, single_enum_cost_lower.
  rewrite Lv, Nat.eqb_refl.
  destruct (every_second_spec d 0 b) as (w & Ew & Lw & Pw); [lia..|]. rewrite Ew. cbn [obind]. f_equal.
  apply (nth_ext v w 0 0); [lia|]. intros i Hi. fold (en v i) (en w i). rewrite Pv, Pw, P by lia. f_equal. lia.
Qed.

(** ** Concrete shapes *)

(** the vectors of a pruner that was just constructed *)
Definition no_shape : shape := Shape [] [] 0 0 [] 0.
Definition zeros (k : nat) : list R := repeat 0 (S k).
(** ballvol.const, first entries, rounded *)
Definition ball_table : list R :=
  [1; 2; 3141592/1000000; 4188790/1000000; 4934802/1000000; 5263789/1000000; 5167712/1000000].

Lemma zeros_len k : length (zeros k) = S k.
Proof. apply repeat_length. Qed.

Lemma table_pos i : (i <= 6)%nat -> 0 < en ball_table i.
Proof.
  intros H. unfold en, ball_table.
  destruct i as [|[|[|[|[|[|[|i]]]]]]]; cbn [nth]; try lra; lia.
Qed.

(** A six-dimensional basis whose first vector is much longer than the others *)
Definition spike : list R := [10000; 1/10000; 1; 1; 1; 1].

Lemma spike_pos : pos_list spike.
Proof. intros i H. unfold en, spike in *. simpl in H. destruct i as [|[|[|[|[|[|i]]]]]]; cbn [nth]; try lra; lia. Qed.

Definition tight : list R := [1/10; 1/2; 1].
Definition loose : list R := [1/10; 1; 1].
(** both of them interleaved *)
Definition stairs : list R := [1/10; 1/10; 1/2; 1; 1; 1].

Lemma tight_profile : profile 3 tight.
Proof. unfold tight. prof. Qed.
Lemma loose_profile : profile 3 loose.
Proof. unfold loose. prof. Qed.
Lemma stairs_profile : profile 6 stairs.
Proof. unfold stairs. prof. Qed.
Lemma tight_loose : relaxed 3 tight loose.
Proof. intros i H. unfold tight, loose, en. destruct i as [|[|[|i]]]; cbn [nth]; try lra; lia. Qed.

Lemma sqrt_ge a x : 0 <= a -> a * a <= x -> a <= sqrt x.
Proof. intros H1 H2. rewrite <- (sqrt_square a) by auto. apply sqrt_le_1_alt; auto. Qed.
Lemma sqrt_le a x : 0 <= a -> x <= a * a -> sqrt x <= a.
Proof. intros H1 H2. rewrite <- (sqrt_square a) by auto. apply sqrt_le_1_alt; auto. Qed.

Lemma vol1 x : simplex_vol [x] 0 = x.
Proof. rewrite simplex_vol_poly. cbn. field. Qed.

Lemma spike_blocks : block_vol 1 spike = 1 /\ block_vol 2 spike = 1 /\ block_vol 3 spike = 1 /\
  block_vol 4 spike = 1 /\ block_vol 5 spike = 1/100 /\ block_vol 6 spike = 1.
Proof.
  assert (A : sqrt 10000 = 100) by (replace 10000 with (100 * 100) by lra; apply sqrt_square; lra).
  assert (B : sqrt (1/10000) = 1/100) by (replace (1/10000) with ((1/100) * (1/100)) by lra; apply sqrt_square; lra).
  unfold block_vol, spike, rprod. cbn [length Nat.sub skipn map fold_right]. rewrite A, B, sqrt_1. repeat split; lra.
Qed.

Lemma spike_shape : exists sh, load_basis_shape 6 3 1 spike true no_shape = Some sh.
Proof.
  destruct (load_basis_shape_exact 6 3 1 spike no_shape) as (sh & E & _); eauto; try lia; try lra. apply spike_pos.
Qed.

Definition cost6 sh b det := single_enum_cost_evec zeros ball_table (1/2) 6 3 sh b det.

Lemma spike_cost sh b det : load_basis_shape 6 3 1 spike true no_shape = Some sh -> profile 3 b ->
  exists dt, cost6 sh b det = Some (1/2 * (2 * width b 0 + 3141592/1000000 * width b 1 + 4188790/1000000 * width b 2 +
    4934802/1000000 * width b 3 + 5263789/10000 * width b 4 + 5167712/1000000 * width b 5), dt).
Proof.
  intros E Pb. assert (S1 : (0 < 3)%nat /\ (2 * 3 <= 6)%nat /\ (6 < length ball_table)%nat) by (simpl; lia).
  assert (S2 : 0 < 1/2 /\ 0 < 1 /\ (forall i, (i <= 6)%nat -> 0 < en ball_table i)).
  { split; [lra|]. split; [lra|]. apply table_pos. }
  assert (S3 : length spike = 6%nat /\ pos_list spike) by (split; [reflexivity|apply spike_pos]).
  pose proof (cost_sizes ball_table (1/2) 6 3 spike 1 sh no_shape S1 S2 S3 E) as CS.
  destruct (cost_spec zeros zeros_len ball_table (1/2) 6 3 sh CS b det Pb) as (t & dt & Ec & _ & _ & T).
  exists dt. unfold cost6. rewrite Ec, T. do 2 f_equal. clear Ec T.
  pose proof (level_is ball_table (1/2) 6 3 spike 1 sh no_shape S1 S2 S3 E) as LV.
  assert (F : forall i, (i < 6)%nat -> full_level ball_table (1/2) sh i = ball_points ball_table (1/2) spike 1 (S i)).
  { intros i Hi. rewrite <- LV by lia. unfold full_level. replace (S i - 1)%nat with i by lia. reflexivity. }
  change (2 * 3)%nat with 6%nat. cbn [upto]. rewrite !F by lia. unfold ball_points, en, ball_table. cbn [nth].
  rewrite sqrt_1, !pow1. destruct spike_blocks as (B1 & B2 & B3 & B4 & B5 & B6). rewrite B1, B2, B3, B4, B5, B6. field.
Qed.

Lemma spike_totals sh det : load_basis_shape 6 3 1 spike true no_shape = Some sh ->
  exists l dl u du, cost6 sh tight det = Some (l, dl) /\ cost6 sh loose det = Some (u, du) /\ u < l.
Proof.
  intros E. destruct (spike_cost sh tight det E tight_profile) as (dl & El).
  destruct (spike_cost sh loose det E loose_profile) as (du & Eu).
  do 4 eexists. split; [exact El|]. split; [exact Eu|].
  unfold width. cbn [Nat.odd Nat.even negb Nat.div Nat.divmod fst Nat.eqb Nat.sub pow].
  unfold part. cbn [tight loose firstn fact Nat.mul Nat.add]. rewrite !vol1, !vol2, !vol3. unfold en, tight, loose. cbn [nth INR].
  match goal with |- 1 / 2 * (_ + _ + _ * sqrt ?a + _ + _ * sqrt ?b + _) < 1 / 2 * (_ + _ + _ * sqrt ?c + _ + _ * sqrt ?e + _) =>
    assert (A : sqrt a <= 44/100) by (apply sqrt_le; lra);
    assert (B : sqrt b <= 23/100) by (apply sqrt_le; lra);
    assert (C : 0 <= sqrt c) by apply sqrt_pos;
    assert (D : 265/1000 <= sqrt e) by (apply sqrt_ge; lra) end.
  lra.
Qed.

Lemma stairs_halves : every_second 3 0 stairs = Some tight /\ every_second 3 1 stairs = Some loose.
Proof. split; reflexivity. Qed.

(** *** Relaxing the bounds can make the estimate smaller *)
Theorem enum_cost_monotone_refuted :
  exists sh b b' c c' dt dt', load_basis_shape 6 3 1 spike true no_shape = Some sh /\
    profile 3 b /\ profile 3 b' /\ relaxed 3 b b' /\ en b 2 = 1 /\ en b' 2 = 1 /\
    single_enum_cost zeros ball_table (1/2) 6 3 sh b [] = Some (c, dt) /\
    single_enum_cost zeros ball_table (1/2) 6 3 sh b' [] = Some (c', dt') /\ c' < c.
Proof.
  destruct spike_shape as (sh & E). destruct (spike_totals sh [] E) as (l & dl & u & du & El & Eu & H).
  exists sh, tight, loose, l, u, dl, du. split; [exact E|]. split; [apply tight_profile|].
  split; [apply loose_profile|]. split; [apply tight_loose|]. split; [reflexivity|]. split; [reflexivity|].
  split; [exact El|]. split; [exact Eu|exact H].
Qed.

(** *** The "upper bound" can be below the "lower bound", the sum of detailed_cost
    is then neither the returned cost, nor is the cost computed from external
    coefficients *)
Theorem enum_cost_bracket_refuted :
  exists sh b pr l dl u du c dt p dp, load_basis_shape 6 3 1 spike true no_shape = Some sh /\
    profile 6 b /\ en b 4 = 1 /\ en b 5 = 1 /\ pr = rev b /\
    single_enum_cost_lower zeros ball_table (1/2) 6 3 sh b [] = Some (l, dl) /\
    single_enum_cost_upper zeros ball_table (1/2) 6 3 sh b [] = Some (u, du) /\ u < l /\
    single_enum_cost zeros ball_table (1/2) 6 3 sh b [] = Some (c, dt) /\ rsum 6 dt < c /\
    public_single_enum_cost zeros ball_table (1/2) 6 3 sh pr [] = Some (p, dp) /\ c < p.
Proof.
  destruct spike_shape as (sh & E). destruct (spike_totals sh [] E) as (l & dl & u & du & El & Eu & H).
  destruct stairs_halves as (H0 & H1).
  assert (S1 : (0 < 3)%nat /\ (2 * 3 <= 6)%nat /\ (6 < length ball_table)%nat) by (simpl; lia).
  assert (S2 : 0 < 1/2 /\ 0 < 1 /\ (forall i, (i <= 6)%nat -> 0 < en ball_table i)).
  { split; [lra|]. split; [lra|]. apply table_pos. }
  assert (S3 : length spike = 6%nat /\ pos_list spike) by (split; [reflexivity|apply spike_pos]).
  destruct (enum_cost_full zeros zeros_len ball_table (1/2) 6 3 spike 1 sh no_shape S1 S2 S3 E stairs [])
    as (l' & dl' & u' & du' & t & dt & A & B & C & D & _ & _ & _ & _ & F); [simpl; lia|apply stairs_profile|].
  assert (A' : single_enum_cost_lower zeros ball_table (1/2) 6 3 sh stairs [] = Some (l, dl))
    by (unfold single_enum_cost_lower; rewrite H0; exact El).
  assert (B' : single_enum_cost_upper zeros ball_table (1/2) 6 3 sh stairs [] = Some (u, du))
    by (unfold single_enum_cost_upper; rewrite H1; exact Eu).
  rewrite A in A'. injection A' as -> ->. rewrite B in B'. injection B' as -> ->.
  destruct (public_single_enum_cost_is_lower zeros ball_table (1/2) 6 3 sh (rev stairs) [])
    as (b & Eb & Lb & Pb & Ep); [lia|lia|reflexivity|lia|].
  assert (b = stairs) as ->.
  { apply (nth_ext b stairs 0 0); [rewrite Lb; reflexivity|]. intros i Hi. fold (en b i). rewrite Pb by lia.
    rewrite Lb in Hi. destruct i as [|[|[|[|[|[|i]]]]]]; try reflexivity. lia. }
  rewrite A in Ep. change (2 * 3)%nat with 6%nat in F.
  exists sh, stairs, (rev stairs), l, dl, u, du, t, dt, l, dl.
  split; [exact E|]. split; [apply stairs_profile|]. split; [reflexivity|]. split; [reflexivity|].
  split; [reflexivity|]. split; [exact A|]. split; [exact B|]. split; [exact H|]. split; [exact C|].
  split; [rewrite <- F; lra|]. split; [exact Ep|lra].
Qed.

(** *** repeated_enum_cost ignores the target with the metric of expected solutions *)
Theorem repeated_enum_cost_target_refuted :
  exists sh b e c dt v w, load_basis_shape 2 1 1 [1; 1] true no_shape = Some sh /\ profile 1 b /\
    expected_solutions zeros ball_table (1/2) 1 sh b = Some e /\
    single_enum_cost zeros ball_table (1/2) 2 1 sh b [] = Some (c, dt) /\
    repeated_enum_cost (1/2) zeros ball_table (1/2) 2 1 sh Solutions 0 2 b = Some v /\
    target_function (1/2) zeros ball_table (1/2) 2 1 sh Solutions 0 2 b = Some w /\
    v = c * 1 /\ 1 * e < 2 /\ v < w.
Proof.
  assert (Pg : pos_list [1; 1]) by (intros i H; simpl in H; destruct i as [|[|i]]; cbn; try lra; lia).
  destruct (load_basis_shape_exact 2 1 1 [1; 1] no_shape) as (sh & E & _); try lia; try lra; auto.
  assert (S1 : (0 < 1)%nat /\ (2 * 1 <= 2)%nat /\ (2 < length ball_table)%nat) by (simpl; lia).
  assert (S2 : 0 < 1/2 /\ 0 < 1 /\ (forall i, (i <= 2)%nat -> 0 < en ball_table i)).
  { split; [lra|]. split; [lra|]. intros i Hi. apply table_pos. lia. }
  assert (S3 : length [1; 1] = 2%nat /\ pos_list [1; 1]) by auto.
  assert (Pb : profile 1 [1]) by prof.
  destruct (expected_solutions_last_level zeros zeros_len ball_table (1/2) 2 1 [1; 1] 1 sh no_shape S1 S2 S3 E [1] [])
    as (e & c & dt & Ee & Ec & _ & Ve & Pe & _); auto.
  destruct (enum_cost_estimate zeros zeros_len ball_table (1/2) 2 1 [1; 1] 1 sh no_shape S1 S2 S3 E [1] [])
    as (c' & dt' & Ec' & L & A & B & _ & T); auto.
  rewrite Ec in Ec'. injection Ec' as <- <-.
  assert (V : e = 1570796 / 1000000).
  { rewrite Ve. unfold ball_points, block_vol, part, rprod, en, ball_table. cbn [length Nat.sub Nat.mul Nat.add skipn map fold_right nth firstn fact INR].
    rewrite sqrt_1, pow1, vol1. field. }
  assert (C : 0 < c).
  { assert (P0 : 0 < en dt 0).
    { specialize (A 1%nat ltac:(lia)). change (2 * 1 - 2 * 1)%nat with 0%nat in A. rewrite A. change (2 * 1)%nat with 2%nat in *. rewrite <- Ve. auto. }
    assert (P1 : 0 < en dt 1).
    { change (2 * 1 - 1)%nat with 1%nat in B. rewrite B.
      unfold ball_points, block_vol, rprod, en, ball_table. cbn [length Nat.sub skipn map fold_right nth].
      rewrite sqrt_1. simpl. lra. }
    rewrite T. destruct dt as [|x [|y dt]]; [discriminate|discriminate|]. unfold rsum, en in *. simpl in *. lra. }
  exists sh, [1], e, c, dt, (c * 1), (c * (2 / e)).
  split; [exact E|]. split; [exact Pb|]. split; [exact Ee|]. split; [exact Ec|].
  assert (X : 2 / e = 2000000 / 1570796) by (rewrite V; field).
  split; [|split; [|split; [reflexivity|split]]].
  - unfold repeated_enum_cost. rewrite Ee, Ec. cbn [obind]. destruct (Req_EM_T e 0); [lra|]. cbn [obind fst]. unfold repeated.
    destruct (Rlt_dec (1 / e) 1) as [_|N]; [f_equal; ring|]. exfalso. apply N. rewrite V. lra.
  - unfold target_function. rewrite Ee, Ec. cbn [obind]. destruct (Req_EM_T e 0); [lra|]. cbn [obind fst]. unfold repeated.
    destruct (Rlt_dec (2 / e) 1) as [N|_]; [|f_equal; ring]. exfalso. rewrite X in N. lra.
  - lra.
  - rewrite X. apply Rmult_lt_compat_l; lra.
Qed.

(** *** In odd dimension the last inverse partial volume is not one but not computed *)
Theorem load_basis_shape_odd_refuted :
  exists g s', length g = 3%nat /\ pos_list g /\ load_basis_shape 3 1 1 g true no_shape = Some s' /\
    en (sh_ipv s') 2 = 0.
Proof.
  assert (Pg : pos_list [4; 1; 1]) by (intros i H; simpl in H; destruct i as [|[|[|i]]]; cbn; try lra; lia).
  assert (D : (0 < 3)%nat /\ (2 * 1 <= 3)%nat) by lia.
  destruct (load_spec 3 1 D 1 [4; 1; 1] true no_shape eq_refl Pg Rlt_0_1) as (s' & E & _ & _ & _ & _ & _ & _ & _ & _ & Q).
  exists [4; 1; 1], s'. split; [reflexivity|]. split; [exact Pg|]. split; [exact E|]. rewrite Q by lia. reflexivity.
Qed.

(** ** Cases that meet the hypotheses *)

(** the estimates of [tight] on the spike: the cost is dominated by dimension 5 *)
Example enum_cost_case : exists sh total dt, load_basis_shape 6 3 1 spike true no_shape = Some sh /\
  single_enum_cost zeros ball_table (1/2) 6 3 sh tight [] = Some (total, dt) /\
  en dt 0 = 1/2 * (5167712/1000000) * (196/1000) /\ en dt 2 = 1/2 * (4934802/1000000) * (9/100) /\
  en dt 4 = 1/2 * (3141592/1000000) * (1/10) /\ total = rsum 6 dt.
Proof.
  destruct spike_shape as (sh & E).
  assert (S1 : (0 < 3)%nat /\ (2 * 3 <= 6)%nat /\ (6 < length ball_table)%nat) by (simpl; lia).
  assert (S2 : 0 < 1/2 /\ 0 < 1 /\ (forall i, (i <= 6)%nat -> 0 < en ball_table i)).
  { split; [lra|]. split; [lra|]. apply table_pos. }
  assert (S3 : length spike = 6%nat /\ pos_list spike) by (split; [reflexivity|apply spike_pos]).
  destruct (enum_cost_estimate zeros zeros_len ball_table (1/2) 6 3 spike 1 sh no_shape S1 S2 S3 E tight [])
    as (c & dt & Ec & _ & A & _ & _ & T); [reflexivity|apply tight_profile|].
  destruct spike_blocks as (B1 & B2 & B3 & B4 & B5 & B6).
  exists sh, c, dt. split; [exact E|]. split; [exact Ec|].
  pose proof (A 1%nat ltac:(lia)) as A1. pose proof (A 2%nat ltac:(lia)) as A2. pose proof (A 3%nat ltac:(lia)) as A3.
  cbn [Nat.mul Nat.add Nat.sub] in A1, A2, A3. unfold ball_points in A1, A2, A3. rewrite B2 in A1. rewrite B4 in A2.
  rewrite B6 in A3. rewrite sqrt_1, pow1 in A1, A2, A3. unfold part in A1, A2, A3. unfold tight in A1, A2, A3.
  cbn [firstn fact Nat.mul Nat.add INR] in A1, A2, A3. rewrite vol1 in A1. rewrite vol2 in A2. rewrite vol3 in A3.
  unfold en, ball_table in *. cbn [nth] in *.
  split; [rewrite A3; lra|]. split; [rewrite A2; lra|]. split; [rewrite A1; lra|]. exact T.
Qed.

(** two different shapes are averaged *)
Example load_basis_shapes_case : exists s', load_basis_shapes 1 1 [[4; 1]; [1; 4]] no_shape = Some s' /\
  en (sh_ipv s') 0 * sh_nr s' ^ 1 = (1 + 1/2) / 2 /\ en (sh_ipv s') 1 * sh_nr s' ^ 2 = 1/2.
Proof.
  destruct (load_basis_shapes_average 2 1 1 [[4; 1]; [1; 4]] no_shape) as (s' & E & _ & _ & A & _);
    try lia; try lra; try discriminate.
  - intros g [<-|[<-|[]]]; (split; [reflexivity|]; intros i H; simpl in H; destruct i as [|[|i]]; cbn; try lra; lia).
  - assert (F : sqrt 4 = 2) by (replace 4 with (2 * 2) by lra; apply sqrt_square; lra).
    exists s'. split; [exact E|]. split.
    + pose proof (A 1%nat ltac:(lia)) as A1. change (1 - 1)%nat with 0%nat in A1. rewrite A1. unfold over, block_vol, rprod. cbn [length Nat.sub skipn map fold_right INR].
      rewrite sqrt_1, pow1, F. lra.
    + pose proof (A 2%nat ltac:(lia)) as A2. change (2 - 1)%nat with 1%nat in A2. rewrite A2. unfold over, block_vol, rprod.
      cbn [length Nat.sub skipn map fold_right INR]. rewrite sqrt_1, pow1, F. lra.
Qed.

(** the Gaussian heuristic of a lattice of volume 2 in the plane *)
Example gaussian_heuristic_case : exists s' gh, load_basis_shape 2 1 1 [4; 1] true no_shape = Some s' /\
  gaussian_heuristic 2 ball_table s' = Some gh /\ 3141592/1000000 * (sqrt gh ^ 2) = 2.
Proof.
  assert (Pg : pos_list [4; 1]) by (intros i H; simpl in H; destruct i as [|[|i]]; cbn; try lra; lia).
  destruct (load_basis_shape_exact 2 1 1 [4; 1] no_shape) as (sh & E & _); try lia; try lra; auto.
  destruct (gaussian_heuristic_volume 2 1 1 [4; 1] no_shape sh ball_table) as (gh & G & _ & V); auto; try (simpl; lia).
  { apply table_pos. lia. }
  exists sh, gh. split; [exact E|]. split; [exact G|].
  unfold en, ball_table, lattice_vol, rprod in V. cbn [nth map fold_right] in V. rewrite V.
  replace 4 with (2 * 2) by lra. rewrite sqrt_square, sqrt_1 by lra. lra.
Qed.

(** probability 3/4 per trial, target 15/16: two trials *)
Example trials_case : trials_for (15/16) (3/4) = Some 2.
Proof.
  unfold trials_for. destruct (Req_EM_T (3/4) 0); [lra|]. destruct (Req_EM_T (3/4) 1); [lra|].
  destruct (Rlt_dec 1 (3/4)); [lra|]. f_equal. replace (1 - 15/16) with ((1/4) * (1/4)) by lra.
  replace (1 - 3/4) with (1/4) by lra. rewrite ln_mult by lra.
  assert (ln (1/4) < 0) by (rewrite <- ln_1; apply ln_increasing; lra). field. lra.
Qed.

(** a plane-like profile in dimension 4 with target 9/10: the target is reached *)
Example target_function_case : exists sh c t v,
  load_basis_shape 4 2 1 [4; 1; 1; 1] true no_shape = Some sh /\
  target_function (995/1000) zeros ball_table (1/2) 4 2 sh Probability 10 (9/10) [1/2; 1] = Some v /\
  v = c * t + 10 * (t - 1) /\ 1 <= t /\ 0 < c.
Proof.
  assert (Pg : pos_list [4; 1; 1; 1]) by (intros i H; simpl in H; destruct i as [|[|[|[|i]]]]; cbn; try lra; lia).
  destruct (load_basis_shape_exact 4 2 1 [4; 1; 1; 1] no_shape) as (sh & E & _); try lia; try lra; auto.
  assert (S1 : (0 < 2)%nat /\ (2 * 2 <= 4)%nat /\ (4 < length ball_table)%nat) by (simpl; lia).
  assert (S2 : 0 < 1/2 /\ 0 < 1 /\ (forall i, (i <= 4)%nat -> 0 < en ball_table i)).
  { split; [lra|]. split; [lra|]. intros i Hi. apply table_pos. lia. }
  assert (S3 : length [4; 1; 1; 1] = 4%nat /\ pos_list [4; 1; 1; 1]) by auto.
  assert (Pb : profile 2 [1/2; 1]) by prof.
  pose proof (cost_sizes ball_table (1/2) 4 2 _ 1 sh no_shape S1 S2 S3 E) as CS.
  pose proof (cost_positive ball_table (1/2) 4 2 _ 1 sh no_shape S1 S2 S3 E) as CP.
  destruct (enum_cost_range zeros zeros_len ball_table (1/2) 4 2 sh CS CP [1/2; 1] [] Pb) as (c & dt & f1 & f2 & Ec & _ & _ & Pc & _).
  { intros i H. destruct i as [|[|i]]; cbn; try lra; lia. }
  destruct (svp_probability_case (995/1000) ltac:(lra) zeros zeros_len) as (p & Ep & Rp).
  destruct (target_function_trials (995/1000) zeros ball_table (1/2) 2 4 sh 10 (9/10) [1/2; 1] p c dt) as (t & A & _ & B & _);
    try lra; auto.
  exists sh, c, t, (c * t + 10 * (t - 1)). split; [exact E|]. split; [exact A|]. split; [reflexivity|]. split; [exact B|lra].
Qed.

Print Assumptions enum_cost_bracket_refuted.
Print Assumptions load_basis_shapes_average.
