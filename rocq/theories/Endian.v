(** Model of util/endian.c (compiled when REDCONF_ENDIAN_SWAP is defined). *)
From Verif Require Import Base.

(** util/endian.c:38-48 RedRev64. Each "<<" is on uint64_t: truncated to 64 bits. *)
Definition RedRev64 (x0 : N) : N :=
  let x1 := N.lor (u64 (N.shiftl (N.land x0 0x00000000FFFFFFFF) 32))
                  (N.shiftr (N.land x0 0xFFFFFFFF00000000) 32) in
  let x2 := N.lor (u64 (N.shiftl (N.land x1 0x0000FFFF0000FFFF) 16))
                  (N.shiftr (N.land x1 0xFFFF0000FFFF0000) 16) in
  N.lor (u64 (N.shiftl (N.land x2 0x00FF00FF00FF00FF) 8))
        (N.shiftr (N.land x2 0xFF00FF00FF00FF00) 8).

(** util/endian.c:57-64 RedRev32 *)
Definition RedRev32 (x : N) : N :=
  N.lor (N.lor (N.lor (u32 (N.shiftl (N.land x 0x000000FF) 24))
                      (u32 (N.shiftl (N.land x 0x0000FF00) 8)))
               (N.shiftr (N.land x 0x00FF0000) 8))
        (N.shiftr (N.land x 0xFF000000) 24).

(** util/endian.c:73-78 RedRev16; the promoted result is truncated on return. *)
Definition RedRev16 (x : N) : N :=
  u16 (N.lor (N.shiftr (N.land x 0xFF00) 8) (N.shiftl (N.land x 0x00FF) 8)).

(** Specification: little-endian byte list of width n, and its inverse. *)
Fixpoint le_bytes (n : nat) (x : N) : list N :=
  match n with O => [] | S m => (x mod 256) :: le_bytes m (x / 256) end.
Fixpoint of_le_bytes (l : list N) : N :=
  match l with [] => 0 | b :: t => b + 256 * of_le_bytes t end.
Definition byte_reverse (n : nat) (x : N) : N := of_le_bytes (rev (le_bytes n x)).

Lemma le_bytes_length n x : length (le_bytes n x) = n.
Proof. revert x; induction n; simpl; auto. Qed.
Lemma le_bytes_ok n x : bytes_ok (le_bytes n x).
Proof. revert x; induction n; simpl; constructor; auto. apply N.mod_lt; lia. apply IHn. Qed.
Lemma of_le_bytes_le n x : x < 256 ^ N.of_nat n -> of_le_bytes (le_bytes n x) = x.
Proof.
  revert x; induction n; simpl le_bytes; simpl of_le_bytes; intros.
  - simpl in H. lia.
  - rewrite IHn.
    + pose proof (N.div_mod' x 256) as E. rewrite E at 3. apply N.add_comm.
    + rewrite Nat2N.inj_succ, N.pow_succ_r' in H.
      apply N.div_lt_upper_bound; lia.
Qed.
Lemma le_bytes_of_le l : bytes_ok l -> le_bytes (length l) (of_le_bytes l) = l.
Proof.
  induction 1; simpl; auto.
  assert (E : x + 256 * of_le_bytes l = of_le_bytes l * 256 + x) by lia.
  rewrite E. f_equal.
  - rewrite N.add_comm, N.mod_add by lia. now apply N.mod_small.
  - rewrite N.div_add_l by lia. rewrite (N.div_small x) by auto. now rewrite N.add_0_r.
Qed.
Lemma of_le_bytes_lt l : bytes_ok l -> of_le_bytes l < 256 ^ N.of_nat (length l).
Proof.
  induction 1; simpl of_le_bytes; simpl length.
  - simpl; lia.
  - rewrite Nat2N.inj_succ, N.pow_succ_r'. lia.
Qed.

Lemma rev_bytes_ok l : bytes_ok l -> bytes_ok (rev l).
Proof. apply Forall_rev. Qed.

Lemma byte_reverse_involutive n x :
  x < 256 ^ N.of_nat n -> byte_reverse n (byte_reverse n x) = x.
Proof.
  intros. unfold byte_reverse.
  assert (L : length (rev (le_bytes n x)) = n) by now rewrite rev_length, le_bytes_length.
  rewrite <- L at 1. rewrite le_bytes_of_le by (apply rev_bytes_ok, le_bytes_ok).
  rewrite rev_involutive. now apply of_le_bytes_le.
Qed.

Lemma byte_reverse_lt n x : byte_reverse n x < 256 ^ N.of_nat n.
Proof.
  unfold byte_reverse.
  replace n with (length (rev (le_bytes n x))) at 2 by now rewrite rev_length, le_bytes_length.
  apply of_le_bytes_lt, rev_bytes_ok, le_bytes_ok.
Qed.

(** testbit of a little-endian byte list *)
Lemma of_le_bytes_testbit l k : bytes_ok l ->
  N.testbit (of_le_bytes l) k = N.testbit (nthN l (k / 8) 0) (k mod 8).
Proof.
  intros H; revert k; induction H; intros k.
  - unfold nthN; simpl. now destruct (N.to_nat (k / 8)); rewrite N.bits_0.
  - simpl of_le_bytes.
    replace (x + 256 * of_le_bytes l) with (of_le_bytes l * 2 ^ 8 + x) by (simpl; lia).
    destruct (N.lt_ge_cases k 8).
    + rewrite (N.div_small k 8), (N.mod_small k 8) by auto. unfold nthN; simpl nth.
      rewrite <- (N.mod_pow2_bits_low _ 8 k) by auto.
      rewrite N.add_comm, N.mod_add by (apply N.pow_nonzero; lia).
      rewrite N.mod_pow2_bits_low by auto. auto.
    + assert (E : k = (k - 8) + 8) by lia.
      rewrite E at 1. rewrite <- N.div_pow2_bits.
      rewrite N.div_add_l by (apply N.pow_nonzero; lia).
      rewrite (N.div_small x) by auto. rewrite N.add_0_r, IHForall.
      assert (D : k / 8 = (k - 8) / 8 + 1) by lia.
      assert (M : k mod 8 = (k - 8) mod 8) by lia.
      rewrite D, M. unfold nthN. rewrite N2Nat.inj_add. change (N.to_nat 1) with 1%nat.
      rewrite Nat.add_1_r. reflexivity.
Qed.

Lemma le_bytes_nth n x k : k < N.of_nat n -> nthN (le_bytes n x) k 0 = (x / 256 ^ k) mod 256.
Proof.
  revert x k; induction n; intros; [simpl in *; lia|].
  simpl le_bytes. unfold nthN. destruct (N.eq_dec k 0) as [->|].
  - simpl. now rewrite N.div_1_r.
  - assert (E : k = N.succ (k - 1)) by lia. rewrite E.
    rewrite N2Nat.inj_succ. simpl nth. specialize (IHn (x / 256) (k - 1)). unfold nthN in IHn.
    rewrite IHn by lia. rewrite N.pow_succ_r', N.div_div; auto; try lia.
Qed.

Lemma byte_reverse_testbit n x k : k < 8 * N.of_nat n ->
  N.testbit (byte_reverse n x) k = N.testbit x (8 * (N.of_nat n - 1 - k / 8) + k mod 8).
Proof.
  intros. unfold byte_reverse. rewrite of_le_bytes_testbit by apply rev_bytes_ok, le_bytes_ok.
  assert (K : k / 8 < N.of_nat n) by lia.
  unfold nthN. rewrite rev_nth by (rewrite le_bytes_length; lia). rewrite le_bytes_length.
  replace (n - S (N.to_nat (k / 8)))%nat with (N.to_nat (N.of_nat n - 1 - k / 8)) by lia.
  change (nth (N.to_nat ?a) ?l 0) with (nthN l a 0).
  rewrite le_bytes_nth by lia.
  change 256 with (2 ^ 8) at 2. rewrite N.mod_pow2_bits_low by lia.
  change 256 with (2 ^ 8). rewrite <- N.pow_mul_r, N.div_pow2_bits. f_equal. lia.
Qed.

(** Bit-level identity of two numbers below 2^k. *)
Lemma bits_eq_below k a b : a < 2 ^ k -> b < 2 ^ k ->
  (forall i, i < k -> N.testbit a i = N.testbit b i) -> a = b.
Proof.
  intros. apply N.bits_inj; intros i. destruct (N.lt_ge_cases i k); auto.
  rewrite <- (N.mod_small a (2 ^ k)), <- (N.mod_small b (2 ^ k)) by auto.
  now rewrite !N.mod_pow2_bits_high.
Qed.

(** Finite enumeration of bit positions. *)
Fixpoint all_below (n : nat) (p : N -> bool) : bool :=
  match n with O => true | S m => p (N.of_nat m) && all_below m p end.
Lemma all_below_spec n p : all_below n p = true -> forall i, i < N.of_nat n -> p i = true.
Proof.
  induction n; simpl all_below; intros; [lia|].
  apply andb_true_iff in H as [A B].
  destruct (N.eq_dec i (N.of_nat n)) as [->|]; auto. apply IHn; auto. lia.
Qed.

Lemma forall_lt_succ (n : N) (P : N -> Prop) :
  P n -> (forall i, i < n -> P i) -> forall i, i < N.succ n -> P i.
Proof. intros. destruct (N.eq_dec i n) as [->|]; auto. apply H0; lia. Qed.

Lemma lt_split (n i : N) : i < N.succ n -> i = n \/ i < n.
Proof. lia. Qed.

Ltac bit_cases i H :=
  match type of H with
  | i < 0 => exfalso; exact (N.nlt_0_r _ H)
  | i < N.pos ?p =>
        let n := eval vm_compute in (N.pred (N.pos p)) in
        destruct (lt_split n i H) as [->|H']; clear H;
        [ | rename H' into H; bit_cases i H ]
  end.

Lemma testbit_u64 x k : k < 64 -> N.testbit (u64 x) k = N.testbit x k.
Proof. intros. unfold u64. change 18446744073709551616 with (2 ^ 64). now apply N.mod_pow2_bits_low. Qed.
Lemma testbit_u32 x k : k < 32 -> N.testbit (u32 x) k = N.testbit x k.
Proof. intros. unfold u32. change 4294967296 with (2 ^ 32). now apply N.mod_pow2_bits_low. Qed.
Lemma testbit_u16 x k : k < 16 -> N.testbit (u16 x) k = N.testbit x k.
Proof. intros. unfold u16. change 65536 with (2 ^ 16). now apply N.mod_pow2_bits_low. Qed.

Ltac bits_of :=
  repeat first
   [ rewrite testbit_u64 by lia | rewrite testbit_u32 by lia | rewrite testbit_u16 by lia
   | rewrite N.lor_spec | rewrite N.land_spec | rewrite N.shiftr_spec by lia
   | (rewrite N.shiftl_spec_high by lia) | (rewrite N.shiftl_spec_low by lia) ].

Lemma lt_pow2_shiftr k a : a < 2 ^ k <-> N.shiftr a k = 0.
Proof. rewrite N.shiftr_div_pow2. symmetry. apply N.div_small_iff. apply N.pow_nonzero; lia. Qed.

Lemma lor_lt_pow2 k a b : a < 2 ^ k -> b < 2 ^ k -> N.lor a b < 2 ^ k.
Proof. rewrite !lt_pow2_shiftr, N.shiftr_lor. intros -> ->. reflexivity. Qed.

Lemma lxor_lt_pow2 k a b : a < 2 ^ k -> b < 2 ^ k -> N.lxor a b < 2 ^ k.
Proof. rewrite !lt_pow2_shiftr, N.shiftr_lxor. intros -> ->. reflexivity. Qed.

Lemma land_lt_pow2 k a b : b < 2 ^ k -> N.land a b < 2 ^ k.
Proof. rewrite !lt_pow2_shiftr, N.shiftr_land. intros ->. apply N.land_0_r. Qed.

Lemma shiftr_le a n : N.shiftr a n <= a.
Proof. rewrite N.shiftr_div_pow2. apply N.div_le_upper_bound. apply N.pow_nonzero; lia.
  assert (1 <= 2 ^ n) by (assert (0 < 2 ^ n) by (apply N.neq_0_lt_0, N.pow_nonzero; lia); lia). nia. Qed.

Lemma shiftr_lt_pow2 k a n : a < 2 ^ k -> N.shiftr a n < 2 ^ k.
Proof. intros. apply N.le_lt_trans with a; auto. apply shiftr_le. Qed.

Lemma testbit_land_const a m k :
  N.testbit (N.land a m) k = if N.testbit m k then N.testbit a k else false.
Proof. rewrite N.land_spec. now destruct (N.testbit m k), (N.testbit a k). Qed.

Ltac bits_of ::=
  repeat first
   [ rewrite testbit_u64 by reflexivity | rewrite testbit_u32 by reflexivity
   | rewrite testbit_u16 by reflexivity
   | rewrite N.lor_spec | rewrite testbit_land_const | rewrite N.shiftr_spec by discriminate
   | (rewrite N.shiftl_spec_high by discriminate) | (rewrite N.shiftl_spec_low by reflexivity) ].

Ltac rev_bits :=
  bits_of;
  repeat match goal with
  | |- context [ (if ?c then _ else _) ] => let v := eval vm_compute in c in change c with v; cbn iota
  end;
  repeat match goal with
  | |- context [ N.testbit ?x ?k ] => progress (let v := eval vm_compute in k in change k with v)
  end;
  rewrite ?orb_false_r, ?orb_false_l; try reflexivity.

Lemma RedRev16_reverse x : x < 2 ^ 16 -> RedRev16 x = byte_reverse 2 x.
Proof.
  intros Hx. apply (bits_eq_below 16).
  - unfold RedRev16, u16. apply N.mod_lt; lia.
  - apply (byte_reverse_lt 2).
  - intros i Hi. rewrite byte_reverse_testbit by (change (8 * N.of_nat 2) with 16; lia).
    unfold RedRev16. bit_cases i Hi; rev_bits.
Qed.

Lemma RedRev32_reverse x : x < 2 ^ 32 -> RedRev32 x = byte_reverse 4 x.
Proof.
  intros Hx. apply (bits_eq_below 32).
  - unfold RedRev32. repeat apply lor_lt_pow2; try (unfold u32; apply N.mod_lt; lia);
      apply shiftr_lt_pow2, land_lt_pow2; reflexivity.
  - apply (byte_reverse_lt 4).
  - intros i Hi. rewrite byte_reverse_testbit by (change (8 * N.of_nat 4) with 32; lia).
    unfold RedRev32. bit_cases i Hi; rev_bits.
Qed.

Lemma RedRev64_reverse x : x < 2 ^ 64 -> RedRev64 x = byte_reverse 8 x.
Proof.
  intros Hx. apply (bits_eq_below 64).
  - unfold RedRev64. repeat apply lor_lt_pow2; try (unfold u64; apply N.mod_lt; lia);
      apply shiftr_lt_pow2, land_lt_pow2; reflexivity.
  - apply (byte_reverse_lt 8).
  - intros i Hi. rewrite byte_reverse_testbit by (change (8 * N.of_nat 8) with 64; lia).
    unfold RedRev64. cbv zeta. bit_cases i Hi; rev_bits.
Qed.

Lemma RedRev16_involutive x : x < 2 ^ 16 -> RedRev16 (RedRev16 x) = x.
Proof.
  intros. rewrite (RedRev16_reverse x) by auto. rewrite RedRev16_reverse by apply (byte_reverse_lt 2).
  now apply (byte_reverse_involutive 2).
Qed.
Lemma RedRev32_involutive x : x < 2 ^ 32 -> RedRev32 (RedRev32 x) = x.
Proof.
  intros. rewrite (RedRev32_reverse x) by auto. rewrite RedRev32_reverse by apply (byte_reverse_lt 4).
  now apply (byte_reverse_involutive 4).
Qed.
Lemma RedRev64_involutive x : x < 2 ^ 64 -> RedRev64 (RedRev64 x) = x.
Proof.
  intros. rewrite (RedRev64_reverse x) by auto. rewrite RedRev64_reverse by apply (byte_reverse_lt 8).
  now apply (byte_reverse_involutive 8).
Qed.

(** Specification: each helper reverses the little-endian bytes of its argument. *)
Definition endian_spec : Prop :=
  (forall x, x < 2 ^ 16 -> le_bytes 2 (RedRev16 x) = rev (le_bytes 2 x) /\ RedRev16 (RedRev16 x) = x) /\
  (forall x, x < 2 ^ 32 -> le_bytes 4 (RedRev32 x) = rev (le_bytes 4 x) /\ RedRev32 (RedRev32 x) = x) /\
  (forall x, x < 2 ^ 64 -> le_bytes 8 (RedRev64 x) = rev (le_bytes 8 x) /\ RedRev64 (RedRev64 x) = x).

Lemma le_bytes_byte_reverse n x : le_bytes n (byte_reverse n x) = rev (le_bytes n x).
Proof.
  unfold byte_reverse.
  replace n with (length (rev (le_bytes n x))) at 1 by now rewrite rev_length, le_bytes_length.
  apply le_bytes_of_le, rev_bytes_ok, le_bytes_ok.
Qed.

Lemma endian_ok : endian_spec.
Proof.
  repeat split.
  - rewrite RedRev16_reverse by auto. apply le_bytes_byte_reverse.
  - now apply RedRev16_involutive.
  - rewrite RedRev32_reverse by auto. apply le_bytes_byte_reverse.
  - now apply RedRev32_involutive.
  - rewrite RedRev64_reverse by auto. apply le_bytes_byte_reverse.
  - now apply RedRev64_involutive.
Qed.

Example endian_example :
  RedRev64 0x0102030405060708 = 0x0807060504030201 /\ RedRev32 0x12345678 = 0x78563412 /\
  RedRev16 0xABCD = 0xCDAB.
Proof. repeat split; reflexivity. Qed.
