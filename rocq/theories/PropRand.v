(** C92: the random numbers (nr_rand.inl:12-74, nr_Z_mpz.inl:201-228) *)
From Coq Require Import List ZArith Bool Lia Arith.
From Verif Require Import RandModel.
Import ListNotations.
Local Open Scope Z_scope.

(** what GMP promises of its generator *)
Definition gmp_right (g : gmp) : Prop :=
  (forall s n, 0 <= n -> 0 <= fst (g_urandomb g s n) < 2 ^ n) /\
  (forall s m, 0 < m -> 0 <= fst (g_urandomm g s m) < m).
(** calls that do not look at the clock *)
Definition no_clock (c : call) : Prop := match c with CTime | CTime2 => False | _ => True end.

(** Once a seed is given, the numbers drawn depend on the seed and the calls only:
    not on what was drawn before, not on the clock. *)
Lemma execs_no_clock g cs : Forall no_clock cs -> forall clk clk' i i' s, execs g clk i s cs = execs g clk' i' s cs.
Proof.
  induction 1 as [|c cs Hc Hcs IH]; intros clk clk' i i' s; [reflexivity|]. cbn [execs].
  assert (E : exec g (clk i) s c = exec g (clk' i') s c) by (destruct c; try contradiction; reflexivity).
  rewrite E, (IH clk clk' (S i) (S i')). reflexivity.
Qed.
Theorem seed_reproducible g clk clk' i i' s s' seed cs : Forall no_clock cs ->
  execs g clk i s (CSeed seed :: cs) = execs g clk' i' s' (CSeed seed :: cs).
Proof.
  intros H. cbn [execs exec fst snd]. rewrite (execs_no_clock g cs H clk clk' (S i) (S i')). reflexivity.
Qed.
(** Without any call of init the generator is the default one. *)
Theorem default_reproducible g clk clk' i i' cs : Forall no_clock cs ->
  fst (execs g clk i (rstart g) cs) = fst (execs g clk' i' (rstart g) (CInit :: cs)).
Proof.
  intros H. cbn [execs exec fst snd app]. rewrite (execs_no_clock g cs H clk clk' i (S i')).
  destruct cs as [|c cs]; [reflexivity|]. cbn [execs]. destruct c; reflexivity.
Qed.
(** The numbers lie in the range asked for. *)
Theorem random_range g s n : gmp_right g -> 0 < n ->
  (0 <= fst (randb g s n) < 2 ^ n) /\ (0 <= fst (randm g s n) < n) /\
  (n <= 63 -> 0 <= fst (randb_l g s n) < 2 ^ n /\ fst (randb_l g s n) = fst (randb_d g s n)) /\
  (n < 2 ^ 63 -> 0 <= fst (randm_l g s n) < n).
Proof.
  intros [HB HM] Hn. unfold randb, randm, randb_l, randb_d, randm_l, get_si.
  pose proof (HB (get_state g s) n ltac:(lia)) as B. pose proof (HM (get_state g s) n Hn) as M.
  destruct (n >? 32); cbn [fst snd].
  all: split; [exact B|]; split; [exact M|]; split.
  all: intros L; first [rewrite (Z.mod_small _ (2 ^ 63)) by lia; exact M
    | assert (P : 2 ^ n <= 2 ^ 63) by (apply Z.pow_le_mono_r; lia);
      rewrite (Z.mod_small _ (2 ^ 63)) by lia; split; [exact B | reflexivity]].
Qed.

(** ** More than 32 bits *)

(** the part of a number that counts: the 64 lower bits without bit 31 *)
Definition part (x : Z) : Z := x mod 2 ^ 31 + 2 ^ 32 * ((x mod 2 ^ 64) / 2 ^ 32).
Lemma tmp_part x : tmp_of x = part x.
Proof.
  unfold tmp_of, part, ulong. apply Z.bits_inj'. intros n Hn.
  rewrite Z.land_spec.
  assert (A : Z.testbit (x mod 2 ^ 31 + 2 ^ 32 * (x mod 2 ^ 64 / 2 ^ 32)) n
              = if n <? 31 then Z.testbit x n else if n <? 32 then false else if n <? 64 then Z.testbit x n else false).
  { replace (x mod 2 ^ 31 + 2 ^ 32 * (x mod 2 ^ 64 / 2 ^ 32)) with (Z.lor (x mod 2 ^ 31) (Z.shiftl (Z.shiftr (x mod 2 ^ 64) 32) 32)).
    - rewrite Z.lor_spec. 
      destruct (Z.ltb_spec n 31) as [L|L].
      + rewrite Z.mod_pow2_bits_low by lia. rewrite Z.shiftl_spec_low by lia. apply orb_false_r.
      + rewrite Z.mod_pow2_bits_high by lia. cbn [orb]. destruct (Z.ltb_spec n 32) as [L2|L2].
        * apply Z.shiftl_spec_low. lia.
        * rewrite Z.shiftl_spec by lia. rewrite Z.shiftr_spec by lia. replace (n - 32 + 32) with n by lia.
          destruct (Z.ltb_spec n 64); [apply Z.mod_pow2_bits_low; lia | apply Z.mod_pow2_bits_high; lia].
    - rewrite (Z.mul_comm (2 ^ 32)), <- Z.shiftr_div_pow2, <- Z.shiftl_mul_pow2 by lia.
      assert (E : Z.land (x mod 2 ^ 31) (Z.shiftl (Z.shiftr (x mod 2 ^ 64) 32) 32) = 0).
      { apply Z.bits_inj'. intros k Hk. rewrite Z.land_spec, Z.bits_0.
        destruct (Z.ltb_spec k 31); [rewrite Z.shiftl_spec_low by lia; apply andb_false_r | rewrite Z.mod_pow2_bits_high by lia; reflexivity]. }
      rewrite (Z.add_nocarry_lxor _ _ E), (Z.lxor_lor _ _ E). reflexivity. }
  rewrite A. clear A.
  replace (2 ^ 64 - 1 - 2 ^ 31) with (Z.ldiff (Z.ones 64) (2 ^ 31)) by reflexivity.
  rewrite Z.ldiff_spec, Z.pow2_bits_eqb by lia.
  destruct (Z.ltb_spec n 64) as [L|L].
  - rewrite Z.mod_pow2_bits_low, Z.ones_spec_low by lia.
    destruct (Z.eqb_spec 31 n) as [<-|N]; [apply andb_false_r|]. cbn. rewrite andb_true_r.
    destruct (Z.ltb_spec n 31), (Z.ltb_spec n 32); try lia; reflexivity.
  - rewrite Z.mod_pow2_bits_high by lia. cbn.
    destruct (Z.ltb_spec n 31), (Z.ltb_spec n 32); try lia; reflexivity.
Qed.

(** The state after a draw of more than 32 bits depends only on the number drawn,
    and of it only on the 64 lower bits without bit 31: where two generators, in
    whatever states, draw numbers that agree in this part, all that follows is the
    same. *)
Theorem randb_forgets g s s' bits bits' : 32 < bits -> 32 < bits' ->
  part (fst (randb g s bits)) = part (fst (randb g s' bits')) ->
  forall clk i cs, execs g clk i (snd (randb g s bits)) cs = execs g clk i (snd (randb g s' bits')) cs.
Proof.
  intros H H' E clk i cs. unfold randb in *.
  rewrite (proj2 (Z.gtb_lt _ _) H), (proj2 (Z.gtb_lt _ _) H') in *. cbn [fst snd] in *.
  rewrite !tmp_part, E. reflexivity.
Qed.

Lemma after_add g s bits a b : after g s bits (a + b) = after g (after g s bits a) bits b.
Proof. induction b as [|b IH]; [rewrite Nat.add_0_r; reflexivity|]. rewrite Nat.add_succ_r. cbn [after]. rewrite IH. reflexivity. Qed.

(** numbers of the parts, without gap *)
Definition key (x : Z) : Z := x mod 2 ^ 31 + 2 ^ 31 * ((x mod 2 ^ 64) / 2 ^ 32).
Lemma key_part x y : key x = key y -> part x = part y.
Proof.
  unfold key, part. intros E.
  pose proof (Z.mod_pos_bound x (2 ^ 31) ltac:(lia)). pose proof (Z.mod_pos_bound y (2 ^ 31) ltac:(lia)).
  set (a := x mod 2 ^ 31) in *. set (b := y mod 2 ^ 31) in *. set (u := x mod 2 ^ 64 / 2 ^ 32) in *. set (v := y mod 2 ^ 64 / 2 ^ 32) in *.
  clearbody a b u v. change (2 ^ 31) with 2147483648 in *. change (2 ^ 32) with 4294967296. assert (u = v) by lia. lia.
Qed.
Lemma key_range x bits : 32 < bits -> 0 <= x < 2 ^ bits -> 0 <= key x < 2 ^ (Z.min bits 64 - 1).
Proof.
  intros Hb Hx. unfold key. set (m := Z.min bits 64).
  pose proof (Z.mod_pos_bound x (2 ^ 31) ltac:(lia)) as A.
  assert (B : 0 <= x mod 2 ^ 64 < 2 ^ m).
  { unfold m. destruct (Z.min_spec bits 64) as [[L ->]|[L ->]].
    - rewrite Z.mod_small; [exact Hx|]. pose proof (Z.pow_le_mono_r 2 bits 64 ltac:(lia) ltac:(lia)). lia.
    - apply Z.mod_pos_bound. lia. }
  assert (C : 32 < m) by (unfold m; lia).
  assert (D : 2 ^ m = 2 ^ 32 * 2 ^ (m - 32)) by (rewrite <- Z.pow_add_r by lia; f_equal; lia).
  assert (D2 : 2 ^ (m - 1) = 2 ^ 31 * 2 ^ (m - 32)) by (rewrite <- Z.pow_add_r by lia; f_equal; lia).
  assert (E : 0 <= x mod 2 ^ 64 / 2 ^ 32 < 2 ^ (m - 32)).
  { split; [apply Z.div_pos; lia | apply Z.div_lt_upper_bound; lia]. }
  rewrite D2. set (u := x mod 2 ^ 64 / 2 ^ 32) in *. set (w := 2 ^ (m - 32)) in *. clearbody u w m.
  change (2 ^ 31) with 2147483648 in *. nia.
Qed.
Lemma twice (l : list nat) : ~ NoDup l -> exists a l1 l2 l3, l = l1 ++ a :: l2 ++ a :: l3.
Proof.
  induction l as [|x l IH]; intros N; [elim N; constructor|].
  destruct (in_dec Nat.eq_dec x l) as [I|I].
  - apply in_split in I. destruct I as (l2 & l3 & ->). exists x, [], l2, l3. reflexivity.
  - destruct IH as (a & l1 & l2 & l3 & ->); [intros ND; apply N; constructor; assumption|]. exists a, (x :: l1), l2, l3. reflexivity.
Qed.
Lemma pigeon (f : nat -> nat) (N : nat) : (forall i, f i < N)%nat -> exists i j, (i < j <= N)%nat /\ f i = f j.
Proof.
  intros H. destruct (twice (map f (seq 0 (S N)))) as (a & l1 & l2 & l3 & E).
  { intros ND. apply NoDup_incl_length with (l' := seq 0 N) in ND.
    - rewrite map_length, !seq_length in ND. lia.
    - intros x Hx. apply in_map_iff in Hx. destruct Hx as (i & <- & _). apply in_seq. specialize (H i). lia. }
  assert (L : length (map f (seq 0 (S N))) = S N) by (rewrite map_length, seq_length; reflexivity).
  pose proof L as L'. rewrite E in L'. rewrite !app_length in L'. cbn [length] in L'. rewrite app_length in L'. cbn [length] in L'.
  exists (length l1), (length l1 + S (length l2))%nat. split; [lia|].
  assert (G : forall k, (k < S N)%nat -> nth k (map f (seq 0 (S N))) 0%nat = f k).
  { intros k Hk. rewrite (nth_indep _ 0%nat (f 0%nat)) by (rewrite L; exact Hk). rewrite map_nth, seq_nth by exact Hk. reflexivity. }
  rewrite <- (G (length l1)), <- (G (length l1 + S (length l2))%nat) by lia. rewrite E.
  rewrite !app_nth2 by lia. rewrite Nat.sub_diag. replace (length l1 + S (length l2) - length l1)%nat with (S (length l2)) by lia.
  cbn [nth]. rewrite app_nth2 by lia. rewrite Nat.sub_diag. reflexivity.
Qed.

(** The draws of randb(bits) with more than 32 bits run into a period: whatever the
    seed and the generator, among the first 2^(min(bits,64)-1) + 1 numbers are two
    after which the sequences are equal for ever; for 33 bits that is 2^32 + 1. *)
Theorem randb_period g s bits : gmp_right g -> 32 < bits ->
  exists i j : nat, (i < j)%nat /\ Z.of_nat j <= 2 ^ (Z.min bits 64 - 1) /\
    forall n, drawn g s bits (S i + n) = drawn g s bits (S j + n).
Proof.
  intros [HB _] Hb. set (N := 2 ^ (Z.min bits 64 - 1)).
  assert (R : forall i, 0 <= key (drawn g s bits i) < N).
  { intros i. apply key_range; [exact Hb|]. unfold drawn, randb. rewrite (proj2 (Z.gtb_lt _ _) Hb). cbn [fst]. apply HB. lia. }
  destruct (pigeon (fun i => Z.to_nat (key (drawn g s bits i))) (Z.to_nat N)) as (i & j & Hij & E).
  { intros i. specialize (R i). lia. }
  exists i, j. split; [lia|]. split; [pose proof (R 0%nat); lia|].
  assert (K : key (drawn g s bits i) = key (drawn g s bits j)) by (pose proof (R i); pose proof (R j); cbn beta in E; lia).
  apply key_part in K.
  assert (S1 : after g s bits (S i) = after g s bits (S j)).
  { cbn [after]. unfold drawn, randb in *. rewrite (proj2 (Z.gtb_lt _ _) Hb) in *. cbn [fst snd] in *. rewrite !tmp_part, K. reflexivity. }
  intros n. unfold drawn. rewrite !after_add, S1. reflexivity.
Qed.
(** Each number is determined by the one before it. *)
Theorem randb_next g bits : 32 < bits -> exists f : Z -> Z, forall s n, drawn g s bits (S n) = f (drawn g s bits n).
Proof.
  intros Hb. exists (fun x => fst (g_urandomb g (g_seed g (ulong (part x * part x))) bits)). intros s n.
  unfold drawn at 1. unfold randb at 1. rewrite (proj2 (Z.gtb_lt _ _) Hb). cbn [fst after].
  unfold drawn, randb. rewrite (proj2 (Z.gtb_lt _ _) Hb). cbn [fst snd get_state]. rewrite tmp_part. reflexivity.
Qed.

(** ** Refuted: the numbers of randb are those of the generator of GMP *)

(** the numbers of GMP *)
Fixpoint pure (g : gmp) (s : gst g) (bits : Z) (n : nat) : Z :=
  match n with O => fst (g_urandomb g s bits) | S n' => pure g (snd (g_urandomb g s bits)) bits n' end.
(** a generator that multiplies and adds *)
Definition lcg : gmp :=
  mkgmp Z 1 (fun s => s) (fun s n => ((s / 7) mod 2 ^ n, (6364136223846793005 * s + 1442695040888963407) mod 2 ^ 90))
        (fun s m => (s mod m, (6364136223846793005 * s + 1442695040888963407) mod 2 ^ 90)).
Lemma lcg_right : gmp_right lcg.
Proof. split; intros s n H; cbn [fst g_urandomb g_urandomm lcg]; apply Z.mod_pos_bound; [apply Z.pow_pos_nonneg; lia | exact H]. Qed.
Theorem randb_is_gmp_refuted : exists g seed bits, gmp_right g /\ 0 < bits /\
  drawn g (init_with_seed g seed) bits 0 = pure g (g_seed g seed) bits 0 /\
  drawn g (init_with_seed g seed) bits 1 <> pure g (g_seed g seed) bits 1 /\
  (forall n, drawn g (init_with_seed g seed) bits n = 0) /\ pure g (g_seed g seed) bits 1 <> 0.
Proof.
  exists lcg, 5, 40. split; [exact lcg_right|]. split; [lia|]. split; [reflexivity|]. split; [vm_compute; discriminate|].
  split; [|vm_compute; discriminate].
  assert (A : forall n, after lcg (init_with_seed lcg 5) 40 (S n) = Some 0).
  { induction n as [|n IH]; [reflexivity|]. change (after lcg (init_with_seed lcg 5) 40 (S (S n)))
      with (snd (randb lcg (after lcg (init_with_seed lcg 5) 40 (S n)) 40)). rewrite IH. reflexivity. }
  intros [|n]; [reflexivity|]. unfold drawn. rewrite A. reflexivity.
Qed.
(** For at most 32 bits they are. *)
Theorem randb_small_is_gmp g x bits n : bits <= 32 -> drawn g (Some x) bits n = pure g x bits n.
Proof.
  intros Hb. assert (F : bits >? 32 = false) by (rewrite Z.gtb_ltb; apply Z.ltb_ge; lia).
  revert x. induction n as [|n IH]; intros x; [unfold drawn, randb; rewrite F; reflexivity|].
  cbn [pure]. rewrite <- (IH (snd (g_urandomb g x bits))). unfold drawn.
  change (S n) with (1 + n)%nat. rewrite after_add. cbn [after]. unfold randb at 2. rewrite F. reflexivity.
Qed.

(** ** Examples *)

Example ex92_run : fst (execs lcg (fun _ => (7, 8)) 0 (rstart lcg) [CRandb 20; CSeed 12345; CRandb 20; CRandb 40; CRandm 100; CRandbL 10])
  = [0; 1763; 462045813698; 60; 183].
Proof. vm_compute. reflexivity. Qed.
Example ex92_no_clock : Forall no_clock [CRandb 20; CRandb 40; CRandm 100].
Proof. repeat constructor. Qed.
Example ex92_part : part (2 ^ 31 + 17) = part 17 /\ part (2 ^ 64 + 17) = part 17 /\ part (2 ^ 32 + 17) <> part 17.
Proof. repeat split; vm_compute; congruence. Qed.
Example ex92_hyp : gmp_right lcg /\ 32 < 33 /\ Z.min 33 64 - 1 = 32.
Proof. split; [exact lcg_right | split; [lia | reflexivity]]. Qed.
Example ex92_forget : part (fst (randb lcg (Some (7 * 17)) 40)) = part (fst (randb lcg (Some (7 * (2 ^ 31 + 17))) 40)).
Proof. vm_compute. reflexivity. Qed.

Print Assumptions seed_reproducible.
Print Assumptions default_reproducible.
Print Assumptions random_range.
Print Assumptions randb_forgets.
Print Assumptions randb_period.
Print Assumptions randb_next.
Print Assumptions randb_is_gmp_refuted.
Print Assumptions randb_small_is_gmp.
