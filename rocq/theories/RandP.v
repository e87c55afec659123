(** Proofs about Rand.v *)
From Verif Require Import Base Rand.
Ltac Zify.zify_post_hook ::= idtac.

(** ** The linear congruential generator modulo 2^K *)
Open Scope Z_scope.
Section Lcg.
Context (a c : Z).
Context (A4 : exists q, a = 4 * q + 1) (CO : exists q, c = 2 * q + 1).
(** 1 + a + ... + a^(n-1) *)
Fixpoint gsum (n : nat) : Z := match n with O => 0 | S k => a * gsum k + 1 end.
Fixpoint pw (n : nat) : Z := match n with O => 1 | S k => a * pw k end.
Lemma gsum_add n m : gsum (n + m) = gsum n * pw m + gsum m.
Proof. revert n. induction m as [|m IH]; intros n; cbn [pw gsum]. - rewrite Nat.add_0_r. lia. - rewrite Nat.add_succ_r. cbn [gsum]. rewrite IH. lia. Qed.
Lemma pw4 n : exists q, pw n = 4 * q + 1.
Proof. destruct A4 as (p & P). induction n as [|n (q & Q)]; cbn [pw]. - exists 0. lia. - exists (4 * p * q + p + q). rewrite Q, P. ring. Qed.
Lemma odd_cancel (o : Z) : (exists q, o = 2 * q + 1) -> forall k u, (2 ^ Z.of_nat k | u * o) <-> (2 ^ Z.of_nat k | u).
Proof.
  intros (q & Q). split; [|intros D; apply Z.divide_mul_l; auto]. revert u. induction k as [|k IH]; intros u D.
  { exists u. change (2 ^ Z.of_nat 0) with 1. lia. }
  rewrite Nat2Z.inj_succ, Z.pow_succ_r in * by lia. destruct D as (d & D).
  destruct (Z.Even_or_Odd u) as [(w & W)|(w & W)].
  - assert (D2 : (2 ^ Z.of_nat k | w * o)). { exists d. subst u. set (p := 2 ^ Z.of_nat k) in *. clearbody p. lia. }
    apply IH in D2. destruct D2 as (e & E). exists e. subst u w. ring.
  - exfalso. set (p := 2 ^ Z.of_nat k) in *. clearbody p. subst u o. assert (2 * (2 * w * q + w + q - d * p) = -1) by lia. lia.
Qed.
Lemma gsum_odd m : exists q, gsum (S (2 * m)) = 2 * q + 1.
Proof.
  destruct A4 as (p & P). assert (H : exists q, gsum (2 * m) = 2 * q).
  { induction m as [|m (q & Q)]; [exists 0; reflexivity|]. replace (2 * S m)%nat with (S (S (2 * m))) by lia. cbn [gsum]. rewrite Q, P.
    exists ((4 * p + 1) * (4 * p + 1) * q + 2 * p + 1). ring. }
  destruct H as (q & Q). cbn [gsum]. rewrite Q. exists (a * q). ring.
Qed.
Lemma gsum_div k : forall n, (2 ^ Z.of_nat k | gsum n) <-> (2 ^ Z.of_nat k | Z.of_nat n).
Proof.
  induction k as [|k IH]; intros n.
  { change (2 ^ Z.of_nat 0) with 1. split; intros _; [exists (Z.of_nat n)|exists (gsum n)]; lia. }
  rewrite Nat2Z.inj_succ, Z.pow_succ_r by lia. destruct (Nat.Even_or_Odd n) as [(m & ->)|(m & M)].
  - replace (2 * m)%nat with (m + m)%nat by lia. rewrite gsum_add. destruct (pw4 m) as (q & Q). rewrite Q.
    replace (gsum m * (4 * q + 1) + gsum m) with (2 * (gsum m * (2 * q + 1))) by ring.
    replace (Z.of_nat (m + m)) with (2 * Z.of_nat m) by lia.
    transitivity (2 ^ Z.of_nat k | gsum m * (2 * q + 1)); [apply Z.mul_divide_cancel_l; lia|].
    transitivity (2 ^ Z.of_nat k | gsum m); [apply odd_cancel; eauto|].
    transitivity (2 ^ Z.of_nat k | Z.of_nat m); [apply IH|symmetry; apply Z.mul_divide_cancel_l; lia].
  - replace (2 * m + 1)%nat with (S (2 * m)) in M by lia. subst n. split; intros (d & D); exfalso.
    + destruct (gsum_odd m) as (q & Q). rewrite Q in D. set (p := 2 ^ Z.of_nat k) in *. clearbody p. assert (2 * (q - d * p) = -1) by lia. lia.
    + set (p := 2 ^ Z.of_nat k) in *. clearbody p. assert (2 * (Z.of_nat m - d * p) = -1) by lia. lia.
Qed.
Context (K : nat) (f : Z -> Z).
Context (F : forall x, f x = (a * x + c) mod 2 ^ Z.of_nat K).
Fixpoint iter (n : nat) (x : Z) : Z := match n with O => x | S k => f (iter k x) end.
Lemma pos2 : 0 < 2 ^ Z.of_nat K. Proof. apply Z.pow_pos_nonneg; lia. Qed.
Lemma iter_eq n x : 0 <= x < 2 ^ Z.of_nat K -> iter n x = (x + gsum n * ((a - 1) * x + c)) mod 2 ^ Z.of_nat K.
Proof.
  intros X. pose proof pos2. induction n as [|n IH]; cbn [iter gsum].
  - rewrite Z.mul_0_l, Z.add_0_r, Z.mod_small; auto.
  - rewrite F, IH. rewrite <- Z.add_mod_idemp_l by lia. rewrite Z.mul_mod_idemp_r by lia. rewrite Z.add_mod_idemp_l by lia. f_equal. ring.
Qed.
Lemma iter_range n x : 0 <= x < 2 ^ Z.of_nat K -> 0 <= iter n x < 2 ^ Z.of_nat K.
Proof. intros X. rewrite iter_eq by auto. apply Z.mod_pos_bound, pos2. Qed.
Lemma iter_add n m x : iter (n + m) x = iter n (iter m x). Proof. induction n as [|n IH]; cbn [iter Nat.add]; congruence. Qed.
Lemma iter_fix n x : 0 <= x < 2 ^ Z.of_nat K -> iter n x = x <-> (2 ^ Z.of_nat K | Z.of_nat n).
Proof.
  intros X. pose proof pos2. rewrite <- gsum_div. rewrite iter_eq by auto.
  assert (O : exists q, (a - 1) * x + c = 2 * q + 1). { destruct A4 as (p & ->). destruct CO as (q & ->). exists (2 * p * x + q). ring. }
  rewrite <- (odd_cancel _ O). set (M := 2 ^ Z.of_nat K) in *. set (y := gsum n * ((a - 1) * x + c)). clearbody M y. split.
  - intros E. exists ((x + y) / M). pose proof (Z.div_mod (x + y) M ltac:(lia)). lia.
  - intros (d & ->). rewrite Z_mod_plus_full. apply Z.mod_small. auto.
Qed.
Theorem iter_period i j x : 0 <= x < 2 ^ Z.of_nat K -> iter i x = iter j x <-> Z.of_nat i mod 2 ^ Z.of_nat K = Z.of_nat j mod 2 ^ Z.of_nat K.
Proof.
  intros X. pose proof pos2.
  assert (G : forall i j, (i <= j)%nat -> iter i x = iter j x <-> Z.of_nat i mod 2 ^ Z.of_nat K = Z.of_nat j mod 2 ^ Z.of_nat K).
  { clear i j. intros i j L. replace j with (j - i + i)%nat at 1 by lia. rewrite iter_add.
    assert (E : iter i x = iter (j - i) (iter i x) <-> iter (j - i) (iter i x) = iter i x) by (split; congruence). rewrite E.
    rewrite iter_fix by (apply iter_range; auto). rewrite Nat2Z.inj_sub by auto. set (M := 2 ^ Z.of_nat K) in *. clearbody M. split.
    - intros (d & D). replace (Z.of_nat j) with (Z.of_nat i + d * M) by lia. rewrite Z_mod_plus_full. reflexivity.
    - intros Q. exists (Z.of_nat j / M - Z.of_nat i / M). pose proof (Z.div_mod (Z.of_nat i) M ltac:(lia)). pose proof (Z.div_mod (Z.of_nat j) M ltac:(lia)). lia. }
  destruct (Nat.le_ge_cases i j) as [L|L]; [auto|]. specialize (G j i L). split; intros; symmetry; apply G; auto.
Qed.
End Lcg.
Close Scope Z_scope.

(** ** Tempering is one-to-one *)
Definition M64 : N := 18446744073709551616.
Lemma bits_lt x i : x < M64 -> 64 <= i -> N.testbit x i = false.
Proof. intros L I. destruct (N.eq_dec x 0) as [->|N0]; [apply N.bits_0|]. apply N.bits_above_log2. apply N.log2_lt_pow2; [lia|]. apply N.lt_le_trans with (2 ^ 64); [exact L|]. apply N.pow_le_mono_r; [discriminate|auto]. Qed.
Lemma bits_small x : (forall i, 64 <= i -> N.testbit x i = false) -> x < M64.
Proof.
  intros H. assert (E : x = x mod 2 ^ 64). { apply N.bits_inj. intros i. destruct (N.lt_ge_cases i 64) as [L|G]; [rewrite N.mod_pow2_bits_low; auto|rewrite N.mod_pow2_bits_high; auto]. }
  rewrite E. apply N.mod_lt. discriminate.
Qed.
Definition rs (s t x : N) : N := N.lxor x (N.land (N.shiftr x s) t).
Definition ls (s t x : N) : N := N.lxor x (N.land (u64 (N.shiftl x s)) t).
Lemma rs_lt s t x : x < M64 -> rs s t x < M64.
Proof. intros L. apply bits_small. intros i I. unfold rs. rewrite N.lxor_spec, N.land_spec, N.shiftr_spec by apply N.le_0_l. rewrite !bits_lt by (auto; lia). reflexivity. Qed.
Lemma u64_bit x i : N.testbit (u64 x) i = (i <? 64) && N.testbit x i.
Proof. unfold u64. change 18446744073709551616 with (2 ^ 64). destruct (N.ltb_spec i 64); [rewrite N.mod_pow2_bits_low|rewrite N.mod_pow2_bits_high]; auto. Qed.
Lemma ls_lt s t x : x < M64 -> ls s t x < M64.
Proof. intros L. apply bits_small. intros i I. unfold ls. rewrite N.lxor_spec, N.land_spec, u64_bit. destruct (N.ltb_spec i 64); [lia|]. rewrite bits_lt by auto. reflexivity. Qed.
Lemma rs_inj s t x y : 0 < s -> x < M64 -> y < M64 -> rs s t x = rs s t y -> x = y.
Proof.
  intros S0 X Y E. apply N.bits_inj. assert (G : forall n i, 64 <= i + N.of_nat n -> N.testbit x i = N.testbit y i).
  { induction n as [|n IH]; intros i I.
    { change (N.of_nat 0) with 0 in I. rewrite !bits_lt by (auto; lia). reflexivity. }
    assert (B : N.testbit (rs s t x) i = N.testbit (rs s t y) i) by congruence. unfold rs in B.
    rewrite !N.lxor_spec, !N.land_spec, !N.shiftr_spec in B by apply N.le_0_l. rewrite (IH (i + s)) in B by lia.
    apply (f_equal (fun b => xorb b (N.testbit y (i + s) && N.testbit t i))) in B. rewrite !xorb_assoc, !xorb_nilpotent, !xorb_false_r in B. exact B. }
  intros i. apply (G 64%nat i). change (N.of_nat 64) with 64. lia.
Qed.
Lemma ls_inj s t x y : 0 < s -> x < M64 -> y < M64 -> ls s t x = ls s t y -> x = y.
Proof.
  intros S0 X Y E. apply N.bits_inj. assert (G : forall n i, i < N.of_nat n -> N.testbit x i = N.testbit y i).
  { induction n as [|n IH]; intros i I.
    { change (N.of_nat 0) with 0 in I. lia. }
    assert (B : N.testbit (ls s t x) i = N.testbit (ls s t y) i) by congruence. unfold ls in B.
    rewrite !N.lxor_spec, !N.land_spec, !u64_bit in B.
    assert (C : N.testbit (N.shiftl x s) i = N.testbit (N.shiftl y s) i).
    { destruct (N.lt_ge_cases i s) as [L|L]; [rewrite !N.shiftl_spec_low by auto; reflexivity|]. rewrite !N.shiftl_spec_high' by auto. apply IH. lia. }
    rewrite C in B. set (w := (i <? 64) && N.testbit (N.shiftl y s) i && N.testbit t i) in *. clearbody w.
    apply (f_equal (fun b => xorb b w)) in B. rewrite !xorb_assoc, !xorb_nilpotent, !xorb_false_r in B. exact B. }
  intros i. apply (G (N.to_nat (i + 1)) i). rewrite N2Nat.id. lia.
Qed.
Lemma temper_eq n : temper n = ls 31 (not64 rT) (ls 23 (not64 rT) (rs 43 rT (rs 21 rT n))).
Proof. reflexivity. Qed.
Lemma temper_inj x y : x < M64 -> y < M64 -> temper x = temper y -> x = y.
Proof.
  intros X Y E. rewrite !temper_eq in E.
  apply ls_inj in E; [|reflexivity|apply ls_lt, rs_lt, rs_lt; auto|apply ls_lt, rs_lt, rs_lt; auto].
  apply ls_inj in E; [|reflexivity|apply rs_lt, rs_lt; auto|apply rs_lt, rs_lt; auto].
  apply rs_inj in E; [|reflexivity|apply rs_lt; auto|apply rs_lt; auto].
  apply rs_inj in E; auto. reflexivity.
Qed.
Lemma temper_lt x : x < M64 -> temper x < M64.
Proof. intros L. rewrite temper_eq. apply ls_lt, ls_lt, rs_lt, rs_lt. auto. Qed.

(** ** A one-to-one map of [0, M) into itself is onto *)
Lemma inj_onto (M : nat) (f : nat -> nat) : (forall i, (i < M)%nat -> (f i < M)%nat) -> (forall i j, (i < M)%nat -> (j < M)%nat -> f i = f j -> i = j) ->
  forall v, (v < M)%nat -> exists i, (i < M)%nat /\ f i = v.
Proof.
  intros R I v V. assert (ND : NoDup (map f (seq 0 M))).
  { assert (G : forall l, NoDup l -> (forall i, In i l -> (i < M)%nat) -> NoDup (map f l)).
    { induction 1 as [|i l NI ND IH]; intros B; cbn [map]; constructor.
      - intros C. apply in_map_iff in C. destruct C as (j & E & J). apply NI. rewrite (I i j); auto; [apply B; cbn; auto|apply B; cbn; auto].
      - apply IH. intros j J. apply B. cbn. auto. }
    apply G; [apply seq_NoDup|]. intros i Hi. apply in_seq in Hi. lia. }
  assert (INC : incl (map f (seq 0 M)) (seq 0 M)).
  { intros w W. apply in_map_iff in W. destruct W as (j & <- & J). apply in_seq in J. apply in_seq. specialize (R j). lia. }
  assert (LEN : (length (seq 0 M) <= length (map f (seq 0 M)))%nat) by (rewrite map_length; auto).
  pose proof (NoDup_length_incl ND LEN INC v) as X. assert (IV : In v (seq 0 M)) by (apply in_seq; lia).
  apply X in IV. apply in_map_iff in IV. destruct IV as (i & E & J). apply in_seq in J. exists i. split; auto. lia.
Qed.
