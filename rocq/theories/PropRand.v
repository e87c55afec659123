(** C50: the period and distribution of the pseudo-random number generator of tests/util/rand.c, for every seed. *)
From Verif Require Import Base Rand RandP.
Ltac Zify.zify_post_hook ::= idtac.

(** The seed after i calls of RedRand64 with the same seed pointer, and the number the next call returns *)
Fixpoint after64 (i : nat) (seed : N) : N := match i with O => seed | S k => fst (RedRand64 (after64 k seed)) end.
Definition out64 (i : nat) (seed : N) : N := snd (RedRand64 (after64 i seed)).
(** The same for RedRand32 *)
Fixpoint after32 (i : nat) (seed : N) : N := match i with O => seed | S k => fst (RedRand32 (after32 k seed)) end.
(** The numbers returned by n calls without a seed pointer *)
Fixpoint global64 (n : nat) (now : N) (g : gseed) : list N :=
  match n with O => [] | S k => snd (RedRand64_null now g) :: global64 k now (fst (RedRand64_null now g)) end.

Lemma A4 : exists q, (2862933555777941757 = 4 * q + 1)%Z. Proof. exists 715733388944485439%Z. reflexivity. Qed.
Lemma CO : exists q, (3037000493 = 2 * q + 1)%Z. Proof. exists 1518500246%Z. reflexivity. Qed.
Definition fz (K : nat) (x : Z) : Z := ((2862933555777941757 * x + 3037000493) mod 2 ^ Z.of_nat K)%Z.
Lemma step64 s : Z.of_N (fst (RedRand64 s)) = fz 64 (Z.of_N s).
Proof.
  unfold RedRand64, fst, fz, u64, rA, rC. rewrite N.add_mod_idemp_l by discriminate. rewrite N2Z.inj_mod, N2Z.inj_add, N2Z.inj_mul.
  rewrite (Z.mul_comm (Z.of_N s)). reflexivity.
Qed.
Lemma after64_iter i s : Z.of_N (after64 i s) = iter (fz 64) i (Z.of_N s).
Proof. induction i as [|i IH]; cbn [after64 iter]; auto. rewrite step64, IH. reflexivity. Qed.
Lemma fst_lt s : fst (RedRand64 s) < M64.
Proof. unfold RedRand64, fst, u64. apply N.mod_lt. discriminate. Qed.
Lemma after64_lt i s : s < M64 -> after64 i s < M64.
Proof. intros L. destruct i; cbn [after64]; [auto|apply fst_lt]. Qed.
Lemma mod_conv i (M : N) : M <> 0 -> forall j, (Z.of_nat i mod Z.of_N M = Z.of_nat j mod Z.of_N M)%Z <-> N.of_nat i mod M = N.of_nat j mod M.
Proof. intros H j. rewrite <- !nat_N_Z, <- !N2Z.inj_mod. split; [apply N2Z.inj|congruence]. Qed.
Lemma after64_period seed i j : seed < M64 -> after64 i seed = after64 j seed <-> N.of_nat i mod M64 = N.of_nat j mod M64.
Proof.
  intros L. rewrite <- mod_conv by discriminate. change (Z.of_N M64) with (2 ^ Z.of_nat 64)%Z.
  rewrite <- (iter_period _ _ A4 CO 64 (fz 64) (fun x => eq_refl) i j (Z.of_N seed)) by (change (2 ^ Z.of_nat 64)%Z with 18446744073709551616%Z; unfold M64 in L; lia).
  rewrite <- !after64_iter. split; [congruence|apply N2Z.inj].
Qed.

(** The period is exactly 2^64: two calls return the same number only if their distance is a multiple of 2^64, and then they do. *)
Theorem C50_period : forall seed i j, seed < 2 ^ 64 ->
  out64 i seed = out64 j seed <-> N.of_nat i mod 2 ^ 64 = N.of_nat j mod 2 ^ 64.
Proof.
  intros seed i j L. change (2 ^ 64) with M64 in *. rewrite <- (after64_period seed) by auto. unfold out64, RedRand64. cbn [snd]. split; [|congruence].
  intros E. apply temper_inj in E; [|apply (fst_lt (after64 i seed))|apply (fst_lt (after64 j seed))].
  assert (Q : fst (RedRand64 (after64 i seed)) = fst (RedRand64 (after64 j seed))) by exact E.
  change (after64 (S i) seed = after64 (S j) seed) in Q. rewrite after64_period in Q by auto. apply after64_period; auto.
  rewrite !Nat2N.inj_succ, <- !N.add_1_r in Q. set (a := N.of_nat i) in *. set (b := N.of_nat j) in *. clearbody a b. clear - Q.
  apply (f_equal (fun x => (x + (M64 - 1)) mod M64)) in Q. rewrite !N.add_mod_idemp_l in Q by discriminate.
  replace (a + 1 + (M64 - 1)) with (a + 1 * M64) in Q by (unfold M64; lia). replace (b + 1 + (M64 - 1)) with (b + 1 * M64) in Q by (unfold M64; lia).
  rewrite !N.mod_add in Q by discriminate. exact Q.
Qed.
(** Within a period every 64-bit number is returned (hence exactly once). *)
Theorem C50_all : forall seed v, seed < 2 ^ 64 -> v < 2 ^ 64 -> exists i, N.of_nat i < 2 ^ 64 /\ out64 i seed = v.
Proof.
  intros seed v L V. pose proof (C50_period seed) as P. change (2 ^ 64) with M64 in *.
  assert (B : forall i, out64 i seed < M64) by (intros i; unfold out64, RedRand64; cbn [snd]; apply temper_lt; apply (fst_lt (after64 i seed))).
  assert (G : forall M : nat, N.of_nat M = M64 -> exists i, (i < M)%nat /\ N.to_nat (out64 i seed) = N.to_nat v).
  { intros M EM. apply inj_onto with (f := fun i => N.to_nat (out64 i seed)); [| |lia].
    - intros i _. specialize (B i). lia.
    - intros i j I J E. apply N2Nat.inj in E. apply P in E; auto. rewrite !N.mod_small in E by lia. lia. }
  destruct (G (N.to_nat M64) (N2Nat.id M64)) as (i & I & E). exists i. split; [lia|]. apply N2Nat.inj. exact E.
Qed.
(** RedRand32 returns the low half of what RedRand64 returns, and keeps the low half of the seed; so its period divides 2^32, and
    the seeds repeat only after exactly 2^32 calls. *)
Lemma step32 s : Z.of_N (fst (RedRand32 s)) = fz 32 (Z.of_N s).
Proof.
  unfold RedRand32. rewrite (surjective_pairing (RedRand64 s)). cbn [fst]. unfold RedRand64, fst, fz, u64, u32, rA, rC.
  rewrite N.add_mod_idemp_l by discriminate. rewrite !N2Z.inj_mod, N2Z.inj_add, N2Z.inj_mul. rewrite (Z.mul_comm (Z.of_N s)).
  change (Z.of_N 18446744073709551616) with (4294967296 * 4294967296)%Z. change (Z.of_N 4294967296) with 4294967296%Z. change (2 ^ Z.of_nat 32)%Z with 4294967296%Z.
  rewrite Z.rem_mul_r by lia. rewrite (Z.mul_comm 4294967296 (_ mod _)), Z_mod_plus_full, Z.mod_mod by lia. reflexivity.
Qed.
Theorem C50_rand32 : forall seed, seed < 2 ^ 32 ->
  snd (RedRand32 seed) = snd (RedRand64 seed) mod 2 ^ 32 /\
  forall i j, after32 i seed = after32 j seed <-> N.of_nat i mod 2 ^ 32 = N.of_nat j mod 2 ^ 32.
Proof.
  intros seed L. split. { unfold RedRand32. rewrite (surjective_pairing (RedRand64 seed)). reflexivity. }
  intros i j. change (2 ^ 32) with 4294967296 in *. rewrite <- mod_conv by discriminate. change (Z.of_N 4294967296) with (2 ^ Z.of_nat 32)%Z.
  assert (A : forall i, Z.of_N (after32 i seed) = iter (fz 32) i (Z.of_N seed)).
  { clear i j. induction i as [|i IH]; cbn [after32 iter]; auto. rewrite step32, IH. reflexivity. }
  rewrite <- (iter_period _ _ A4 CO 32 (fz 32) (fun x => eq_refl) i j (Z.of_N seed)) by (change (2 ^ Z.of_nat 32)%Z with 4294967296%Z; lia).
  rewrite <- !A. split; [congruence|apply N2Z.inj].
Qed.
(** Calls without a seed pointer continue one sequence: from the value set with RedRandSeed, or from the clock. *)
Theorem C50_global : forall n now s g, s < 2 ^ 64 ->
  global64 n now (RedRandSeed s g) = map (fun i => out64 i s) (seq 0 n) /\
  global64 n s None = map (fun i => out64 i s) (seq 0 n).
Proof.
  intros n now s g L.
  assert (K : forall now n i, global64 n now (Some (after64 i s)) = map (fun i => out64 i s) (seq i n)).
  { clear. intros now n. induction n as [|n IH]; intros i; cbn [global64 seq map]; auto. f_equal. rewrite <- IH. reflexivity. }
  split; [apply (K now n 0%nat)|]. destruct n as [|n]; [reflexivity|]. cbn [global64 seq map].
  assert (U : u64 s = s) by (unfold u64; apply N.mod_small; exact L). unfold RedRand64_null, RedRandSeed. rewrite U. cbn [fst snd]. f_equal. apply (K s n 1%nat).
Qed.

(** ** Concrete calls *)
Example rand_first : map (fun i => out64 i 1) (seq 0 3) = [13009677261087205546; 2488909770923244913; 16599650926852980905].
Proof. vm_compute. reflexivity. Qed.
Example rand_range : (1 < 2 ^ 64) /\ out64 5 1 < 2 ^ 64. Proof. vm_compute. split; reflexivity. Qed.
